(* What parsing means for the user: structure, attributes, references. *)
From Coq Require Import String List Bool PeanoNat NArith Lia.
From Coq Require Import SpecFloat.
From Verif Require Import Base Ids Links Tree Iter ForestSpec TreeSpec Data Attrs Slab NodeApi AttrSpec Doc History DocSpec
  ListFacts TreeProofs ForestFacts IterSpec IterProofs AttrFacts LinkProofs SlabProofs PruneFacts RemoveProofs InvProofs
  HistoryProofs DrainProofs CopyProofs TreeApi ApiProofs DocApi TidyProofs RootProofs Names NamesProofs Types Text TextSpec Loops
  TextProofs TextApi Parser ParserSpec ParserProofs ParserTree ParserLinks ParserApi ParserFacts.
Import ListNotations.
Open Scope nat_scope.
Open Scope list_scope.

(* ---- lists of nodes *)
Definition some_element : snode := SElement E_Svg [] [] [].
Lemma first_no_style l e : first_element l = Some e -> e <> E_Style -> first_element (flat_map no_style l) = Some e.
Proof.
  induction l as [|x l IH]; [easy|]. destruct x as [e0 id ds ks|s|s]; cbn [first_element flat_map no_style app].
  - intros [= ->] H. destruct (eid_eqb e E_Style) eqn:E; [|easy]. apply eid_eqb_eq in E. easy.
  - apply IH.
  - apply IH.
Qed.
Lemma shown_first Q D l ts e : shown Q D l ts -> first_element l = Some e ->
  exists pre n post, map t_node ts = pre ++ n :: post /\ (forall x, In x pre -> is_element D x = false) /\
    is_element D n = true /\ tag_name D n = QId e.
Proof.
  induction 1 as [|e0 id ds ks l n ts us H1 H2 H3 H4 Hk IHk Hl IHl|s l n us H1 H2 H3 Hl IHl|s l us H2 Hl IHl|s l n us H1 H2 Hl IHl];
    cbn [first_element]; intros Hf; [easy| | | |].
  - injection Hf as ->. exists [], n, (map t_node us). split; [easy|]. split; [easy|]. split; [|easy]. unfold is_element. now rewrite H1.
  - destruct (IHl Hf) as (pre & m & post & E & Hp & Hm). exists (n :: pre), m, post. cbn [map t_node]. rewrite E. split; [easy|].
    split; [|easy]. intros x [<-|Hx]; [|now apply Hp]. unfold is_element. now rewrite H1.
  - now apply IHl.
  - destruct (IHl Hf) as (pre & m & post & E & Hp & Hm). exists (n :: pre), m, post. cbn [map t_node]. rewrite E. split; [easy|].
    split; [|easy]. intros x [<-|Hx]; [|now apply Hp]. unfold is_element. now rewrite H1.
Qed.

(* every node of a shown tree *)
Lemma shown_node Q D l ts : shown Q D l ts -> forall x, In x (flat_map preorder ts) ->
  (is_element D x = true /\ exists e ds, tag_name D x = QId e /\ In (e, id_of D x, ds) (flat_map elements l) /\ Q e ds x) \/
  (node_type D x = NText /\ text_of D x <> []) \/ node_type D x = NComment.
Proof.
  induction 1 as [|e0 id ds ks l n ts us H1 H2 H3 H4 Hk IHk Hl IHl|s l n us H1 H2 H3 Hl IHl|s l us H2 Hl IHl|s l n us H1 H2 Hl IHl];
    intros x Hx; cbn [flat_map preorder app] in Hx.
  - easy.
  - destruct Hx as [<-|Hx].
    + left. split; [unfold is_element; now rewrite H1|]. exists e0, ds. split; [easy|]. split; [|easy]. left. now rewrite H3.
    + apply in_app_iff in Hx. cbn [flat_map elements]. destruct Hx as [Hx|Hx].
      * destruct (IHk x Hx) as [(He & e & ds1 & E1 & E2 & E3)|H]; [left|now right]. split; [easy|]. exists e, ds1. split; [easy|].
        split; [|easy]. right. apply in_app_iff. now left.
      * destruct (IHl x Hx) as [(He & e & ds1 & E1 & E2 & E3)|H]; [left|now right]. split; [easy|]. exists e, ds1. split; [easy|].
        split; [|easy]. right. apply in_app_iff. now right.
  - destruct Hx as [<-|Hx]; [right; left; easy|now apply IHl].
  - now apply IHl.
  - destruct Hx as [<-|Hx]; [right; right; easy|now apply IHl].
Qed.
Lemma laid_node Q D l ts : laid_out Q D l ts -> forall x, In x (flat_map preorder ts) ->
  (is_element D x = true /\ exists e ds, tag_name D x = QId e /\ In (e, id_of D x, ds) (flat_map elements l) /\ Q e ds x) \/
  node_type D x = NText \/ node_type D x = NComment.
Proof.
  induction 1 as [|e0 id ds ks l n ts us H1 H2 H3 H4 Hk IHk Hl IHl|s l n us H1 H2 Hl IHl|s l n us H1 H2 Hl IHl];
    intros x Hx; cbn [flat_map preorder app] in Hx.
  - easy.
  - destruct Hx as [<-|Hx].
    + left. split; [unfold is_element; now rewrite H1|]. exists e0, ds. split; [easy|]. split; [|easy]. left. now rewrite H3.
    + apply in_app_iff in Hx. cbn [flat_map elements]. destruct Hx as [Hx|Hx].
      * destruct (IHk x Hx) as [(He & e & ds1 & E1 & E2 & E3)|H]; [left|now right]. split; [easy|]. exists e, ds1. split; [easy|].
        split; [|easy]. right. apply in_app_iff. now left.
      * destruct (IHl x Hx) as [(He & e & ds1 & E1 & E2 & E3)|H]; [left|now right]. split; [easy|]. exists e, ds1. split; [easy|].
        split; [|easy]. right. apply in_app_iff. now right.
  - destruct Hx as [<-|Hx]; [right; left; easy|now apply IHl].
  - destruct Hx as [<-|Hx]; [right; right; easy|now apply IHl].
Qed.

Lemma snode_ind' (Q : snode -> Prop) :
  (forall e id ds ks, Forall Q ks -> Q (SElement e id ds ks)) -> (forall s, Q (SText s)) -> (forall s, Q (SComment s)) ->
  forall x, Q x.
Proof.
  intros He Ht Hc. fix IH 1. intros [e id ds ks|s|s]; [|apply Ht|apply Hc]. apply He.
  induction ks as [|k ks IHk]; constructor; [apply IH|exact IHk].
Qed.
Lemma no_style_element : forall x e id ds, In (e, id, ds) (flat_map elements (no_style x)) ->
  e <> E_Style /\ In (e, id, ds) (elements x).
Proof.
  induction x as [e0 id0 ds0 ks IH|s|s] using snode_ind'; intros e id ds H; cbn [no_style] in H; try easy.
  destruct (eid_eqb e0 E_Style) eqn:E; [easy|]. cbn [flat_map elements app] in H. rewrite app_nil_r in H.
  destruct H as [[= -> -> ->]|H].
  - split; [|now left]. intros ->. discriminate E.
  - rewrite flat_map_flat_map in H. rewrite Forall_forall in IH. apply in_flat_map in H. destruct H as (k & Hk & H).
    destruct (IH k Hk e id ds H) as (Q1 & Q2). split; [easy|]. right. apply in_flat_map. now exists k.
Qed.
Lemma parts_element l e id ds : In (e, id, ds) (flat_map elements (flat_map no_style l)) ->
  e <> E_Style /\ In (e, id, ds) (flat_map elements l).
Proof.
  rewrite flat_map_flat_map. intros H. apply in_flat_map in H. destruct H as (k & Hk & H).
  destruct (no_style_element k e id ds H) as (Q1 & Q2). split; [easy|]. apply in_flat_map. now exists k.
Qed.

(* ---- the first element *)
Lemma filter_pre D F : InvF D F -> forall pre n post, (forall x, In x pre -> is_element D x = false) -> tag_name D n = QId E_Svg ->
  exists r, filter_svg D (pre ++ n :: post) = (E_Svg, n) :: r.
Proof.
  intros I pre n post Hp Hn. induction pre as [|x pre IH]; cbn [app filter_svg].
  - rewrite Hn. now eexists.
  - destruct (iv_plain D F I x (Hp x (or_introl eq_refl))) as (_ & -> & _). apply IH.
    intros y Hy. apply Hp. now right.
Qed.

Theorem starts_with_svg P top D : parse_svg P (Some top) = Ok (POk D) ->
  exists F pre n post, shows (lk D) F /\ children_of F (droot D) = pre ++ n :: post /\
    (forall x, In x pre -> is_element D x = false) /\ is_element D n = true /\ tag_name D n = QId E_Svg /\
    svg_element D = Ok (Some n).
Proof.
  intros E. destruct (parse_run P top D E) as (Hf & D1 & D2 & F & F3 & t & ls & R & _).
  destruct (run_facts P top D1 D2 D F F3 t ls R (fun _ _ _ => True)) as (_ & Hs); [easy|].
  destruct (run_tree P top D1 D2 D F F3 t ls R) as (Ht & Hr & _).
  pose proof (run_shows P top D1 D2 D F F3 t ls R) as HS.
  destruct (shown_first _ D _ _ E_Svg Hs) as (pre & n & post & Hk & Hp & He & Hn); [now apply first_no_style|].
  assert (Hc : children_of F3 (droot D) = pre ++ n :: post).
  { rewrite <- Hr. rewrite (tree_at_children F3 _ Ht). exact Hk. }
  exists F3, pre, n, post. split; [easy|]. split; [easy|]. split; [easy|]. split; [easy|]. split; [easy|].
  pose proof (shows_inv D F3 (tame_reachable D (run_tame P top D1 D2 D F F3 t ls R)) HS) as I.
  unfold svg_element. rewrite (root_children_list D F3 (t_kids (final_tree D2 D t)) I); [|now rewrite Hc].
  cbn [bind]. rewrite Hk. destruct (filter_pre D F3 I pre n post Hp Hn) as (r & ->). reflexivity.
Qed.

(* ---- references *)
Definition hits (n : nid) (a : aid) (d : link) : bool := Nat.eqb (l_node d) n && aid_eqb (l_attr d) a.
Lemma hits_iff n a d : hits n a d = true <-> l_node d = n /\ l_attr d = a.
Proof. unfold hits. rewrite andb_true_iff, Nat.eqb_eq, aid_eqb_eq. easy. Qed.

Lemma only_set_other D D' n a v m b w : only_set D D' n a v -> (m, b) <> (n, a) ->
  In (mkAttr (QId b) w) (attributes D' m) <-> In (mkAttr (QId b) w) (attributes D m).
Proof.
  intros (_ & Ha & Ho) Hne. destruct (Nat.eq_dec m n) as [->|Hm]; [|now rewrite Ho].
  rewrite Ha, in_app_iff, in_others. cbn [a_name]. split.
  - intros [(H & _)|[[= E _]|[]]]; [easy|]. subst b. easy.
  - intros H. left. split; [easy|]. congruence.
Qed.
Lemma only_set_at D D' n a v w : only_set D D' n a v -> In (mkAttr (QId a) w) (attributes D' n) <-> w = v.
Proof.
  intros (_ & Ha & _). rewrite Ha, in_app_iff, in_others. cbn [a_name]. split.
  - intros [(_ & H)|[[= E]|[]]]; congruence.
  - intros ->. right. now left.
Qed.
Lemma only_set_frame D D' n a v : only_set D D' n a v -> same_nodes D D'. Proof. now intros (H & _). Qed.
Lemma only_set_all D D' n a v m x : only_set D D' n a v -> In x (attributes D' m) ->
  In x (attributes D m) \/ (m = n /\ x = mkAttr (QId a) v).
Proof.
  intros (_ & Ha & Ho). destruct (Nat.eq_dec m n) as [->|Hm]; [|rewrite Ho by easy; now left].
  rewrite Ha, in_app_iff, in_others. intros [(H & _)|[<-|[]]]; [now left|]. now right.
Qed.

Lemma same_refl D : same_nodes D D. Proof. now split. Qed.
Lemma same_trans D1 D2 D3 : same_nodes D1 D2 -> same_nodes D2 D3 -> same_nodes D1 D3.
Proof. intros [] []. split; intros; congruence. Qed.
Lemma resolves_same t d D D' : resolves t d D D' -> same_nodes D D'.
Proof.
  unfold resolves. destruct (first_with_id D t (l_iri d)); [|intros H; apply H]. destruct (refused _ _ _); [|intros H; apply H].
  intros ->. apply same_refl.
Qed.
Lemma resolved_same t ls D D' : resolved t ls D D' -> same_nodes D D'.
Proof.
  induction 1 as [|d ls D D1 D' H1 H IH]; [apply same_refl|]. eapply same_trans; [|exact IH]. now apply (resolves_same t d).
Qed.
Lemma resolved_app t l1 : forall l2 D D', resolved t (l1 ++ l2) D D' -> exists Dm, resolved t l1 D Dm /\ resolved t l2 Dm D'.
Proof.
  induction l1 as [|d l1 IH]; intros l2 D D' H; cbn [app] in H.
  - exists D. split; [constructor|easy].
  - inversion H as [|d' ls' D0 D1 D2 H1 H2]; subst. destruct (IH l2 D1 D' H2) as (Dm & Q1 & Q2). exists Dm. split; [|easy].
    now apply (res_cons t d l1 D D1).
Qed.
(* attributes without a reference stay *)
Lemma resolves_keep t d D D' m b w : resolves t d D D' -> hits m b d = false ->
  In (mkAttr (QId b) w) (attributes D' m) <-> In (mkAttr (QId b) w) (attributes D m).
Proof.
  intros H Hh.
  assert (Hne : (m, b) <> (l_node d, l_attr d)).
  { intros [= -> ->]. assert (X : hits (l_node d) (l_attr d) d = true) by now apply hits_iff. congruence. }
  unfold resolves in H. destruct (first_with_id D t (l_iri d)) as [x|].
  - destruct (refused _ _ _).
    + now subst D'.
    + now apply (only_set_other D D' (l_node d) (l_attr d) (pointing d x)).
  - now apply (only_set_other D D' (l_node d) (l_attr d) (instead d)).
Qed.
Lemma resolved_keep t ls D D' m b w : resolved t ls D D' -> existsb (hits m b) ls = false ->
  In (mkAttr (QId b) w) (attributes D' m) <-> In (mkAttr (QId b) w) (attributes D m).
Proof.
  induction 1 as [|d ls D D1 D' H1 H IH]; intros Hh; [easy|]. cbn [existsb] in Hh. apply orb_false_iff in Hh. destruct Hh as (Hd & Hl).
  rewrite (IH Hl). now apply (resolves_keep t d).
Qed.
(* where attributes come from *)
Lemma resolves_from t d D D' m x : resolves t d D D' -> In x (attributes D' m) -> In x (attributes D m) \/
  (m = l_node d /\ a_name x = QId (l_attr d) /\
   (link_target (a_value x) = None \/ exists y, link_target (a_value x) = Some y /\ first_with_id D t (l_iri d) = Some y)).
Proof.
  unfold resolves. destruct (first_with_id D t (l_iri d)) as [y|] eqn:E.
  - destruct (refused _ _ _); [intros ->; now left|]. intros H Hx. destruct (only_set_all _ _ _ _ _ _ _ H Hx) as [Ho|(-> & ->)]; [now left|].
    right. split; [easy|]. split; [easy|]. right. exists y. split; [|easy]. cbn [a_value]. unfold pointing. now destruct (l_attr d).
  - intros H Hx. destruct (only_set_all _ _ _ _ _ _ _ H Hx) as [Ho|(-> & ->)]; [now left|].
    right. split; [easy|]. split; [easy|]. left. apply instead_plain.
Qed.
Lemma first_same D D' t id : same_nodes D D' -> first_with_id D' t id = first_with_id D t id.
Proof.
  intros H. unfold first_with_id. induction (preorder t) as [|x l IH]; [easy|]. cbn [find]. rewrite (sn_id _ _ H), IH. easy.
Qed.
Lemma resolved_from t ls D D' m x : resolved t ls D D' -> In x (attributes D' m) -> In x (attributes D m) \/
  exists d, In d ls /\ m = l_node d /\ a_name x = QId (l_attr d) /\
   (link_target (a_value x) = None \/ exists y, link_target (a_value x) = Some y /\ first_with_id D t (l_iri d) = Some y).
Proof.
  induction 1 as [|d ls D D1 D' H1 H IH]; intros Hx; [now left|]. destruct (IH Hx) as [Hy|(d' & Hd & Hm & Hn & Hv)].
  - destruct (resolves_from _ _ _ _ _ _ H1 Hy) as [|Q]; [now left|]. right. exists d. split; [now left|]. easy.
  - right. exists d'. split; [now right|]. split; [easy|]. split; [easy|]. rewrite (first_same D D1) in Hv by now apply (resolves_same t d).
    easy.
Qed.
Lemma resolved_last t l1 d l2 D D' v : resolved t (l1 ++ d :: l2) D D' -> existsb (hits (l_node d) (l_attr d)) l2 = false ->
  (forall Dm, resolved t l1 D Dm -> forall x, first_with_id D t (l_iri d) = Some x ->
     refused Dm (l_node d) (mkAttr (QId (l_attr d)) (VLink x)) = None) ->
  In (mkAttr (QId (l_attr d)) v) (attributes D' (l_node d)) <->
  v = match first_with_id D t (l_iri d) with Some x => pointing d x | None => instead d end.
Proof.
  intros H Hl Hr. destruct (resolved_app t l1 _ _ _ H) as (Dm & H1 & H2). inversion H2 as [|d' ls' D0 Dn Dx Hd H3]; subst.
  rewrite (resolved_keep t l2 Dn D' _ _ _ H3 Hl). unfold resolves in Hd. rewrite (first_same D Dm) in Hd by now apply (resolved_same t l1).
  destruct (first_with_id D t (l_iri d)) as [x|].
  - rewrite (Hr Dm H1 x eq_refl) in Hd. now apply (only_set_at Dm Dn).
  - now apply (only_set_at Dm Dn).
Qed.

(* the last reference of an attribute *)
Lemma filter_last {A} (f : A -> bool) : forall l m d, filter f l = m ++ [d] ->
  exists l1 l2, l = l1 ++ d :: l2 /\ existsb f l2 = false.
Proof.
  induction l as [|x l IH] using rev_ind; intros m d H.
  - destruct m; discriminate H.
  - rewrite filter_app in H. cbn [filter] in H. destruct (f x) eqn:E.
    + apply app_inj_tail in H. destruct H as (_ & ->). now exists l, [].
    + rewrite app_nil_r in H. destruct (IH m d H) as (l1 & l2 & -> & H2). exists l1, (l2 ++ [x]). rewrite <- app_assoc.
      split; [easy|]. rewrite existsb_app, H2. cbn. now rewrite E.
Qed.
Definition about (a : aid) (d : link) : bool := aid_eqb (l_attr d) a.
Lemma hits_mine n a ls : filter (hits n a) ls = filter (about a) (mine n ls).
Proof.
  unfold mine, hits, about. induction ls as [|d ls IH]; [easy|]. cbn [filter]. destruct (Nat.eqb (l_node d) n); cbn [andb filter]; [|easy].
  now rewrite IH.
Qed.
Lemma last_effective_snoc P e a ds d : last_effective P e a (ds ++ [d]) =
  if aid_eqb (fst d) a && effective (meaning P e d) then Some (meaning P e d) else last_effective P e a ds.
Proof.
  unfold last_effective. rewrite filter_app, map_app, filter_app, rev_app_distr. cbn [filter].
  destruct (aid_eqb (fst d) a); cbn [map filter andb rev app]; [|easy]. now destruct (effective (meaning P e d)).
Qed.
Lemma references_snoc P e n ds d : references P e n (ds ++ [d]) =
  references P e n ds ++ match meaning P e d with OLink iri fb => [mkLink (fst d) iri fb n] | _ => [] end.
Proof. unfold references. rewrite flat_map_app. cbn [flat_map]. now rewrite app_nil_r. Qed.
Lemma last_reference P e n a iri fb : forall ds, last_effective P e a ds = Some (OLink iri fb) ->
  exists m, filter (about a) (references P e n ds) = m ++ [mkLink a iri fb n].
Proof.
  induction ds as [|d ds IH] using rev_ind; [easy|]. rewrite last_effective_snoc, references_snoc, filter_app.
  destruct (aid_eqb (fst d) a) eqn:Ea; cbn [andb].
  - destruct (meaning P e d) eqn:Em; cbn [effective]; intros H; try easy.
    + cbn [filter]. rewrite app_nil_r. now apply IH.
    + cbn [filter]. rewrite app_nil_r. now apply IH.
    + injection H as -> ->. cbn [filter]. unfold about at 2. cbn [l_attr]. rewrite Ea. apply aid_eqb_eq in Ea. rewrite Ea. now eexists.
  - intros H. destruct (IH H) as (m & ->). exists m. destruct (meaning P e d); cbn [filter]; rewrite ?app_nil_r; try easy.
    unfold about. cbn [l_attr]. now rewrite Ea, app_nil_r.
Qed.
Lemma no_reference_filter P e n a ds : no_reference P e a ds -> filter (about a) (references P e n ds) = [].
Proof.
  intros H. apply filter_none. intros d Hd. unfold references in Hd. apply in_flat_map in Hd. destruct Hd as (x & Hx & Hd).
  destruct (meaning P e x) as [v| | |iri fb] eqn:Em; try easy. destruct Hd as [<-|[]]. unfold about. cbn [l_attr].
  destruct (aid_eqb (fst x) a) eqn:Ea; [|easy]. exfalso. apply aid_eqb_eq in Ea. now apply (H x Hx Ea iri fb).
Qed.
Lemma existsb_filter_nil {A} (f : A -> bool) l : filter f l = [] -> existsb f l = false.
Proof. induction l as [|x l IH]; [easy|]. cbn. destruct (f x); [easy|]. exact IH. Qed.

Lemma str_same s : str_eqb s s = true.
Proof. now apply str_eqb_eq. Qed.
Lemma declares_element P id target : forall x e ds d, In (e, id, ds) (elements x) -> In d ds ->
  (exists fb, meaning P e d = OLink target fb) -> declares P id target x = true.
Proof.
  induction x as [e0 id0 ds0 ks IH|s|s] using snode_ind'; intros e ds d H Hd Hm; try easy.
  cbn [declares elements] in *. apply orb_true_iff. destruct H as [[= -> -> ->]|H].
  - left. rewrite str_same. cbn [andb]. apply existsb_exists. exists d. split; [easy|]. destruct Hm as (fb & ->). apply str_same.
  - right. rewrite Forall_forall in IH. apply in_flat_map in H. destruct H as (k & Hk & H). apply existsb_exists. exists k.
    split; [easy|]. now apply (IH k Hk e ds d).
Qed.
Lemma declares_elements P id target l e ds d : In (e, id, ds) (flat_map elements l) -> In d ds ->
  (exists fb, meaning P e d = OLink target fb) -> existsb (declares P id target) l = true.
Proof.
  intros H Hd Hm. apply in_flat_map in H. destruct H as (k & Hk & H). apply existsb_exists. exists k. split; [easy|].
  now apply (declares_element P id target k e ds d).
Qed.
Lemma uses_some D x y : Nat.ltb 0 (uses D x y) = true -> exists a, In a (attributes D x) /\ link_target (a_value a) = Some y.
Proof.
  unfold uses. intros H. apply Nat.ltb_lt in H. destruct (filter _ (attributes D x)) as [|a l] eqn:E; [cbn in H; lia|].
  assert (Ha : In a (a :: l)) by now left. rewrite <- E in Ha. apply filter_In in Ha. destruct Ha as (Ha & Hf). exists a. split; [easy|].
  destruct (link_target (a_value a)); [|easy]. apply Nat.eqb_eq in Hf. congruence.
Qed.

Lemma laid_find Q D D' l ts f : laid_out Q D l ts -> (forall n, is_text D n = true -> f n = false) ->
  find f (flat_map preorder (keep_nodes (fun n => is_text D n && is_empty (text_of D' n)) ts)) = find f (flat_map preorder ts).
Proof.
  intros H Hf.
  assert (Happ : forall l1 l2, find f (l1 ++ l2) = match find f l1 with Some x => Some x | None => find f l2 end).
  { induction l1 as [|x l1 IH]; intros l2; [easy|]. cbn [app find]. now destruct (f x). }
  induction H as [|e id ds ks l n ts us H1 H2 H3 H4 Hk IHk Hl IHl|s l n us H1 H2 Hl IHl|s l n us H1 H2 Hl IHl];
    unfold keep_nodes; cbn [flat_map t_node].
  - easy.
  - replace (is_text D n) with false by (unfold is_text; now rewrite H1). cbn [andb app]. rewrite drained_kids.
    cbn [flat_map preorder app find]. destruct (f n); [easy|]. rewrite !Happ. now rewrite IHk, <- IHl.
  - assert (Ht : is_text D n = true) by (unfold is_text; now rewrite H1). rewrite Ht. cbn [andb].
    cbn [flat_map preorder app find]. rewrite (Hf n Ht). destruct (is_empty (text_of D' n)); cbn [app flat_map preorder drained find].
    + exact IHl.
    + rewrite (Hf n Ht). exact IHl.
  - replace (is_text D n) with false by (unfold is_text; now rewrite H1). cbn [andb app flat_map preorder drained find].
    destruct (f n); [easy|]. exact IHl.
Qed.

Lemma preorder_eta t : preorder t = t_node t :: flat_map preorder (t_kids t).
Proof. now destruct t. Qed.

Section Run.
Context (P : values) (top : list xml) (D1 D2 D3 : dom) (F F3 : forest) (t : tree) (ls : list link).
Context (R : run P top D1 D2 D3 F F3 t ls).
Local Notation parts := (flat_map no_style (svg_of P top)).

Lemma run_first id : id <> [] -> first_with_id D3 (final_tree D2 D3 t) id = first_with_id D1 t id.
Proof.
  intros Hid. destruct (run_tree P top D1 D2 D3 F F3 t ls R) as (_ & Hr & Hk). unfold first_with_id.
  rewrite !preorder_eta. cbn [find]. rewrite Hr, Hk.
  assert (Hid3 : forall n, id_of D3 n = id_of D1 n).
  { intros n. rewrite (run_id3 P top D1 D2 D3 F F3 t ls R), (run_id P top D1 D2 D3 F F3 t ls R). easy. }
  assert (Hrt : droot D3 = t_node t).
  { rewrite <- Hr. unfold final_tree. apply drained_node. }
  rewrite Hrt, Hid3. destruct (str_eqb (id_of D1 (t_node t)) id); [easy|].
  destruct (run_facts P top D1 D2 D3 F F3 t ls R (fun _ _ _ => True)) as (Hl & _); [easy|].
  rewrite (laid_find _ D2 D3 _ _ (fun n => str_eqb (id_of D3 n) id) Hl).
  - induction (flat_map preorder (t_kids t)) as [|x l IH]; [easy|]. cbn [find]. now rewrite Hid3, IH.
  - intros n Hn. rewrite (run_id3 P top D1 D2 D3 F F3 t ls R).
    destruct (iv_plain _ _ (rn_inv2 _ _ _ _ _ _ _ _ _ R) n) as (_ & _ & ->).
    + unfold is_text, is_element in *. destruct (node_type D2 n); easy.
    + destruct id; easy.
Qed.

Lemma run_reference e ds n a iri fb : raw P D1 ls e ds n -> last_effective P e a ds = Some (OLink iri fb) -> iri <> [] ->
  iri <> id_of D1 n -> existsb (declares P iri (id_of D1 n)) parts = false ->
  forall v, In (mkAttr (QId a) v) (attributes D2 n) <->
    v = match first_with_id D1 t iri with Some x => pointing (mkLink a iri fb n) x | None => instead (mkLink a iri fb n) end.
Proof.
  intros (_ & Hm) Hl Hi1 Hi2 Hd v. destruct (last_reference P e n a iri fb ds Hl) as (m & Em).
  rewrite <- Hm, <- hits_mine in Em. destruct (filter_last _ _ _ _ Em) as (l1 & l2 & E & Hn).
  pose proof (rn_resolved _ _ _ _ _ _ _ _ _ R) as Hr. rewrite E in Hr.
  apply (resolved_last t l1 (mkLink a iri fb n) l2 D1 D2 v Hr Hn). cbn [l_iri l_node l_attr]. intros Dm Hm1 x Hx.
  unfold refused. cbn [a_value link_target]. unfold first_with_id in Hx. apply find_some in Hx. destruct Hx as (Hx & Ex).
  apply str_eqb_eq in Ex. pose proof (resolved_same _ _ _ _ Hm1) as Sm. rewrite !(sn_id _ _ Sm), Ex.
  assert (E1 : str_eqb iri [] = false) by now destruct iri. rewrite E1.
  destruct (str_eqb (id_of D1 n) iri) eqn:E2; [apply str_eqb_eq in E2; now rewrite E2 in Hi2|].
  destruct (Nat.ltb 0 (uses Dm x n)) eqn:E3; [|easy]. exfalso. apply uses_some in E3. destruct E3 as (b & Hb & Tb).
  destruct (resolved_from _ _ _ _ _ _ Hm1 Hb) as [Hb1|(d & Hdl & Hdn & _ & Hdt)].
  { pose proof (rn_plain _ _ _ _ _ _ _ _ _ R x b Hb1). congruence. }
  destruct Hdt as [Hdt|(y & Hy & Hf)]; [congruence|]. assert (y = n) as -> by congruence.
  apply find_some in Hf. destruct Hf as (_ & Ef). apply str_eqb_eq in Ef.
  assert (Hxt : In x (flat_map preorder (t_kids t))).
  { rewrite preorder_eta in Hx. destruct Hx as [Hx|Hx]; [|easy]. exfalso.
    destruct (iv_plain _ _ (rn_inv1 _ _ _ _ _ _ _ _ _ R) x) as (_ & _ & E4); [|congruence].
    unfold is_element. replace (node_type D1 x) with NRoot; [easy|]. symmetry.
    apply (iv_root _ _ (rn_inv1 _ _ _ _ _ _ _ _ _ R)); rewrite <- Hx, (rn_root _ _ _ _ _ _ _ _ _ R); [|easy].
    apply (rn_inv1 _ _ _ _ _ _ _ _ _ R). }
  destruct (laid_node _ _ _ _ (run_laid P top D1 D2 D3 F F3 t ls R) x Hxt) as [(He & e' & ds' & _ & Hin & (_ & Hm'))|Hno].
  - assert (Hd' : In d (mine x ls)).
    { unfold mine. apply filter_In. split; [rewrite E; apply in_app_iff; now left|]. apply Nat.eqb_eq. easy. }
    rewrite Hm' in Hd'. unfold references in Hd'. apply in_flat_map in Hd'. destruct Hd' as (dd & Hdd & Hdx).
    destruct (meaning P e' dd) as [w| | |i f] eqn:Em'; try easy. destruct Hdx as [<-|[]]. cbn [l_iri] in Ef. subst i.
    rewrite Ex in Hin. rewrite (declares_elements P iri (id_of D1 n) parts e' ds' dd Hin Hdd) in Hd; [easy|]. now exists f.
  - destruct (iv_plain _ _ (rn_inv1 _ _ _ _ _ _ _ _ _ R) x) as (_ & _ & E4); [|congruence].
    unfold is_element. destruct Hno as [->| ->]; easy.
Qed.

Lemma run_no_reference e ds n a : raw P D1 ls e ds n -> no_reference P e a ds ->
  forall v, In (mkAttr (QId a) v) (attributes D2 n) <-> plain_value P e a ds = Some v.
Proof.
  intros (Ha & Hm) Hn v. rewrite (resolved_keep t ls D1 D2 n a v (rn_resolved _ _ _ _ _ _ _ _ _ R)).
  - rewrite Ha. split; [intros (b & [= <-] & H); easy|intros H; now exists a].
  - apply existsb_filter_nil. rewrite hits_mine, Hm. now apply no_reference_filter.
Qed.

Lemma run_from e ds n x : In n (flat_map preorder (t_kids t)) -> raw P D1 ls e ds n -> In x (attributes D2 n) ->
  exists a s, a_name x = QId a /\ In (a, s) ds.
Proof.
  intros Hn (Ha & Hm) Hx. destruct (resolved_from _ _ _ _ _ _ (rn_resolved _ _ _ _ _ _ _ _ _ R) Hx) as [H|(d & Hd & Hdn & Hda & _)].
  - destruct x as [q v]. apply Ha in H. destruct H as (a & -> & Hv). apply plain_value_from in Hv. destruct Hv as (s & Hs & _).
    now exists a, s.
  - assert (H : In d (mine n ls)) by (unfold mine; apply filter_In; split; [easy|]; apply Nat.eqb_eq; easy).
    rewrite Hm in H. unfold references in H. apply in_flat_map in H. destruct H as ((a & s) & Hs & H).
    destruct (meaning P e (a, s)); try easy. destruct H as [<-|[]]. cbn [l_attr fst] in Hda. now exists a, s.
Qed.
End Run.
