(* Removing the style elements and resolving references. *)
From Coq Require Import String List Bool PeanoNat NArith Lia.
From Verif Require Import Base Ids Links Tree Iter ForestSpec TreeSpec Data Attrs Slab NodeApi AttrSpec Doc History DocSpec
  ListFacts TreeProofs ForestFacts IterSpec IterProofs AttrFacts LinkProofs SlabProofs PruneFacts RemoveProofs InvProofs
  HistoryProofs DrainProofs CopyProofs TreeApi ApiProofs DocApi TidyProofs RootProofs Names NamesProofs Types Text TextSpec Loops
  TextProofs TextApi Parser ParserSpec ParserProofs ParserTree.
Import ListNotations.
Open Scope nat_scope.
Open Scope list_scope.

(* ---- finding a node *)
Lemma find_descendant_spec D F t p : Rep (lk D) F -> tree_at F t ->
  forall fuel, 2 * length (preorder t) < fuel ->
  find_descendant fuel D p (traverse (t_node t)) = Ok (find p (preorder t)).
Proof.
  intros R Ht.
  assert (G : forall fuel pre mid it, t_state (lk D) t pre mid it -> length mid < fuel ->
     find_descendant fuel D p it = Ok (find p (starts mid))).
  { induction fuel as [|fuel IH]; intros pre mid it Hst Hf; [lia|]. cbn [find_descendant].
    pose proof (descendants_next_spec (lk D) F t R Ht (S fuel) pre mid it Hst Hf) as Hn.
    destruct (starts mid) as [|n l] eqn:Em.
    - destruct Hn as (it' & ->). easy.
    - destruct Hn as (pre' & mid' & it' & -> & Hst' & Ei & Hlen). cbn [bind]. injection Ei as ->.
      cbn [find]. destruct (p n) eqn:Ep; [easy|]. apply (IH pre' mid' it' Hst'). lia. }
  intros fuel Hf. rewrite (G fuel [] (edges t) (traverse (t_node t))).
  - now rewrite starts_edges.
  - split; [easy|]. unfold traverse. now rewrite edges_hd.
  - rewrite edges_length. lia.
Qed.

(* ---- one reference *)
Lemma unresolved_eq d : unresolved d = instead d.
Proof.
  unfold unresolved, instead. destruct (l_fallback d) as [[]|]; try easy.
  destruct (aid_eqb (l_attr d) A_Fill) eqn:E1; [apply aid_eqb_eq in E1; now rewrite E1|].
  destruct (aid_eqb (l_attr d) A_Href) eqn:E2; [apply aid_eqb_eq in E2; now rewrite E2|].
  destruct (l_attr d); try reflexivity; [discriminate E1|discriminate E2].
Qed.
Lemma instead_plain d : link_target (instead d) = None.
Proof. unfold instead. destruct (l_fallback d) as [[]|]; try easy. now destruct (l_attr d). Qed.

Definition asked (d : link) (x : nid) : attr :=
  if aid_eqb (l_attr d) A_Fill || aid_eqb (l_attr d) A_Stroke
  then mkAttr (QId (l_attr d)) (VPaint x (l_fallback d)) else attr_from_node (QId (l_attr d)) x.
Lemma asked_name d x : a_name (asked d x) = QId (l_attr d).
Proof.
  unfold asked. destruct (_ || _); [easy|]. unfold attr_from_node, link_attr.
  destruct (name_has_id _ _); [easy|]. now destruct (_ || _).
Qed.
Lemma asked_target d x : link_target (a_value (asked d x)) = Some x.
Proof.
  unfold asked. destruct (_ || _); [easy|]. unfold attr_from_node, link_attr.
  destruct (name_has_id _ _); [easy|]. now destruct (_ || _).
Qed.
Lemma asked_stored d x : stored (asked d x) = mkAttr (QId (l_attr d)) (pointing d x).
Proof.
  rewrite stored_shape, asked_name. f_equal. unfold shape. rewrite asked_target. unfold pointing.
  assert (Hc : l_attr d = A_Fill \/ l_attr d = A_Stroke \/ aid_eqb (l_attr d) A_Fill || aid_eqb (l_attr d) A_Stroke = false).
  { destruct (aid_eqb (l_attr d) A_Fill) eqn:E1; [left; now apply aid_eqb_eq|].
    destruct (aid_eqb (l_attr d) A_Stroke) eqn:E2; [right; left; now apply aid_eqb_eq|]. now right; right. }
  unfold asked. destruct Hc as [->|[->|Hc]]; try reflexivity.
  destruct (l_attr d); first [discriminate Hc|reflexivity].
Qed.
Lemma refused_target D n a b : link_target (a_value a) = link_target (a_value b) -> refused D n a = refused D n b.
Proof. intros H. unfold refused. now rewrite H. Qed.
Lemma frame_same D D' : frame D D' -> same_nodes D D'.
Proof. intros []. now split. Qed.

Lemma set_only D F n a v D' : InvF D F -> is_element D n = true -> frame D D' ->
  (forall m, attributes D' m = if Nat.eqb m n then drop_name (QId a) (attributes D m) ++ [mkAttr (QId a) v] else attributes D m) ->
  only_set D D' n a v.
Proof.
  intros I He Hf Ha. split; [now apply frame_same|]. split.
  - rewrite Ha, Nat.eqb_refl. easy.
  - intros m Hm. rewrite Ha. destruct (Nat.eqb_spec m n); easy.
Qed.

Definition alive_links (t : tree) (ls : list link) (D : dom) (o : op) (D' : dom) : Prop :=
  (forall d, In d ls -> storage_key D (l_node d) <> None) -> (forall x, In x (preorder t) -> storage_key D x <> None) ->
  orderly o D'.

Lemma resolve_link_spec D F t d ls D0 : InvF D F -> tree_at F t -> t_node t = droot D ->
  is_element D (l_node d) = true -> In d ls -> (forall n, storage_key D n = storage_key D0 n) ->
  exists D', resolve_link d D = Ok D' /\ resolves t d D D' /\ InvF D' F /\ frame D D' /\ calls (alive_links t ls D0) D D'.
Proof.
  intros I Ht Hr He Hd Hk. unfold resolve_link, resolves.
  assert (Hn : t_node t < fresh D) by (rewrite Hr; apply I).
  replace (traverse (droot D)) with (traverse (t_node t)) by now rewrite Hr.
  rewrite (find_descendant_spec D F t _ (iv_rep D F I) Ht).
  2:{ pose proof (tree_size D F t I Ht Hn). unfold enough. lia. }
  cbn [bind]. fold (first_with_id D t (l_iri d)).
  destruct (first_with_id D t (l_iri d)) as [x|] eqn:Ex.
  - assert (Hx : In x (preorder t)) by (apply find_some in Ex; tauto).
    pose proof (tree_nodes_exist D F t I Ht Hn x Hx) as Hxf.
    fold (asked d x).
    pose proof (set_attribute_checked_spec (l_node d) (asked d x) D (iv_link D F I) He) as Hs.
    rewrite <- (refused_error D (l_node d) (asked d x) (iv_link D F I)) in Hs.
    rewrite (refused_target D (l_node d) (asked d x) (mkAttr (QId (l_attr d)) (VLink x))) in Hs by (now rewrite asked_target).
    destruct (refused D (l_node d) _) as [er|].
    + rewrite Hs. cbn [bind fst]. exists D. split; [easy|]. split; [easy|]. split; [easy|]. split; [apply frame_refl|constructor].
    + destruct Hs as (D' & E & Hf & Ha & _). rewrite E. cbn [bind fst]. exists D'. split; [easy|].
      destruct (set_checked_inv D F _ _ _ I E) as (I' & _). cbn [fst] in I'. split.
      { apply (set_only D F); try easy. intros m. rewrite Ha, asked_name, asked_stored. easy. }
      split; [easy|]. split; [easy|].
      apply (calls_step _ D (OSetAttributeChecked (l_node d) (asked d x)) D); [constructor| |easy|easy| |].
      * split; [|exact Logic.I]. intros m. cbn [handles]. rewrite asked_target. intros [<-|[<-|[]]]; [|exact Hxf]. now apply (element_exists D F).
      * intros K1 K2. split.
        -- intros m. cbn [handles]. rewrite asked_target, Hk. intros [<-|[<-|[]]]; auto.
        -- intros _. rewrite asked_name. now exists (l_attr d).
      * unfold step. now rewrite E.
  - rewrite unresolved_eq.
    pose proof (set_attribute_checked_spec (l_node d) (mkAttr (QId (l_attr d)) (instead d)) D (iv_link D F I) He) as Hs.
    unfold link_error in Hs. cbn [a_value a_name] in Hs. rewrite instead_plain in Hs. destruct Hs as (D' & E & Hf & Ha & _).
    assert (Es : set_attribute (l_node d) (mkAttr (QId (l_attr d)) (instead d)) D = Ok D') by (unfold set_attribute; now rewrite E).
    rewrite Es. exists D'. split; [easy|]. destruct (set_attribute_inv D F _ _ D' I Es) as (I' & _).
    assert (Hst : stored (mkAttr (QId (l_attr d)) (instead d)) = mkAttr (QId (l_attr d)) (instead d)).
    { rewrite stored_shape. cbn [a_name a_value]. unfold shape. now rewrite instead_plain. }
    split.
    { apply (set_only D F); try easy. intros m. rewrite Ha, Hst. easy. }
    split; [easy|]. split; [easy|].
    apply (calls_step _ D (OSetAttribute (l_node d) (mkAttr (QId (l_attr d)) (instead d))) D); [constructor| |easy|easy| |exact Es].
    + split; [|exact Logic.I]. intros m. cbn [handles a_value]. rewrite instead_plain. intros [<-|[]]. now apply (element_exists D F).
    + intros K1 K2. split.
      * intros m. cbn [handles a_value]. rewrite instead_plain, Hk. intros [<-|[]]. auto.
      * intros H. cbn [a_value] in H. now rewrite instead_plain in H.
Qed.

Lemma frame_trans D1 D2 D3 : frame D1 D2 -> frame D2 D3 -> frame D1 D3.
Proof. intros [] []. split; intros; congruence. Qed.

Lemma resolve_links_spec t F all D0 : tree_at F t -> forall ls D, (forall d, In d ls -> In d all) ->
  InvF D F -> t_node t = droot D -> (forall d, In d ls -> is_element D (l_node d) = true) ->
  (forall n, storage_key D n = storage_key D0 n) ->
  exists D', resolve_links ls D = Ok D' /\ resolved t ls D D' /\ InvF D' F /\ frame D D' /\ calls (alive_links t all D0) D D'.
Proof.
  intros Ht. unfold resolve_links. induction ls as [|d ls IH]; intros D Hall I Hr He Hk; cbn [for_each].
  - exists D. split; [easy|]. split; [constructor|]. split; [easy|]. split; [apply frame_refl|constructor].
  - destruct (resolve_link_spec D F t d all D0 I Ht Hr) as (D1 & E1 & R1 & I1 & F1 & C1); [apply He; now left|apply Hall; now left|easy|].
    rewrite E1. cbn [bind].
    destruct (IH D1) as (D2 & E2 & R2 & I2 & F2 & C2).
    + intros d' Hd'. apply Hall. now right.
    + easy.
    + now rewrite (fr_root _ _ F1).
    + intros d' Hd'. unfold is_element. rewrite (fr_type _ _ F1). apply He. now right.
    + intros n. now rewrite (fr_key _ _ F1).
    + exists D2. split; [easy|]. split; [now apply (res_cons t d ls D D1)|]. split; [easy|].
      split; [now apply (frame_trans D D1)|]. now apply (calls_trans _ D D1).
Qed.

(* ---- style elements *)
Definition keep_nodes (p : nid -> bool) (ts : list tree) : list tree :=
  flat_map (fun c => if p (t_node c) then [] else [drained p c]) ts.
Lemma drained_kids p n ts : drained p (T n ts) = T n (keep_nodes p ts).
Proof. reflexivity. Qed.

Lemma keep_nodes_in p : forall t x, In x (preorder (drained p t)) -> In x (preorder t).
Proof.
  induction t as [n ts IH] using tree_ind'. intros x. rewrite drained_kids. cbn [preorder]. intros [->|H]; [now left|right].
  unfold keep_nodes in H. rewrite Forall_forall in IH. apply in_flat_map in H. destruct H as (c & Hc & Hx).
  apply in_flat_map in Hc. destruct Hc as (c0 & Hc0 & Hc). destruct (p (t_node c0)); [easy|]. destruct Hc as [<-|[]].
  apply in_flat_map. exists c0. split; [easy|]. now apply IH.
Qed.
Lemma keep_nodes_sub p ts x : In x (flat_map preorder (keep_nodes p ts)) -> In x (flat_map preorder ts).
Proof. intros H. assert (K : In x (preorder (drained p (T x ts))) -> True) by easy. clear K.
  unfold keep_nodes in H. apply in_flat_map in H. destruct H as (c & Hc & Hx).
  apply in_flat_map in Hc. destruct Hc as (c0 & Hc0 & Hc). destruct (p (t_node c0)); [easy|]. destruct Hc as [<-|[]].
  apply in_flat_map. exists c0. split; [easy|]. now apply keep_nodes_in in Hx.
Qed.

Lemma built_nodes P D l ts ls : built P D l ts ls -> forall d, In d ls ->
  In (l_node d) (flat_map preorder ts) /\ is_element D (l_node d) = true.
Proof.
  induction 1 as [|e id ds ks l n ts us l1 l2 H1 H2 H3 H4 Hk IHk Hl IHl|s l n us l2 H1 H2 Hl IHl|s l n us l2 H1 H2 Hl IHl];
    intros d Hd.
  - easy.
  - cbn [flat_map preorder]. rewrite !in_app_iff in Hd. destruct Hd as [Hd|[Hd|Hd]].
    + unfold references in Hd. apply in_flat_map in Hd. destruct Hd as (x & _ & Hx). destruct (meaning P e x); try easy.
      destruct Hx as [<-|[]]. cbn. split; [now left|]. unfold is_element. now rewrite H1.
    + destruct (IHk d Hd) as (Q1 & Q2). split; [|easy]. right. apply in_app_iff. now left.
    + destruct (IHl d Hd) as (Q1 & Q2). split; [|easy]. right. apply in_app_iff. now right.
  - destruct (IHl d Hd) as (Q1 & Q2). split; [now right|easy].
  - destruct (IHl d Hd) as (Q1 & Q2). split; [now right|easy].
Qed.

Lemma filter_all {A} (f : A -> bool) l : (forall x, In x l -> f x = true) -> filter f l = l.
Proof.
  induction l as [|x l IH]; intros H; [easy|]. cbn. rewrite (H x (or_introl eq_refl)). f_equal. apply IH. intros y Hy. apply H. now right.
Qed.
Lemma filter_none {A} (f : A -> bool) l : (forall x, In x l -> f x = false) -> filter f l = [].
Proof.
  induction l as [|x l IH]; intros H; [easy|]. cbn. rewrite (H x (or_introl eq_refl)). apply IH. intros y Hy. apply H. now right.
Qed.

Lemma nodup_app_l {A} (l1 l2 : list A) : NoDup (l1 ++ l2) -> NoDup l1.
Proof.
  induction l1 as [|x l1 IH]; [constructor|]. intros H. inversion H as [|? ? Q1 Q2]; subst.
  constructor; [|now apply IH]. intros Hi. apply Q1, in_app_iff. now left.
Qed.

(* what is left of the tree without style elements *)
Lemma built_drained P D (p kept : nid -> bool) : (forall n, is_element D n = true -> p n = tag_eqb (tag_name D n) (QId E_Style)) ->
  (forall n, is_element D n = false -> p n = false) ->
  forall l ts ls, built P D l ts ls -> NoDup (flat_map preorder ts) ->
  (forall x, In x (flat_map preorder ts) -> kept x = mem x (flat_map preorder (keep_nodes p ts))) ->
  built P D (flat_map no_style l) (keep_nodes p ts) (filter (fun d => kept (l_node d)) ls).
Proof.
  intros Hp Hp'.
  induction 1 as [|e id ds ks l n ts us l1 l2 H1 H2 H3 H4 Hk IHk Hl IHl|s l n us l2 H1 H2 Hl IHl|s l n us l2 H1 H2 Hl IHl];
    intros Hnd Hkept.
  - constructor.
  - assert (Epn : p n = eid_eqb e E_Style).
    { rewrite Hp by (unfold is_element; now rewrite H1). rewrite H2. reflexivity. }
    cbn [flat_map no_style preorder app] in *. unfold keep_nodes in *. cbn [flat_map t_node] in *. rewrite Epn in *.
    fold (keep_nodes p ts) in *. fold (keep_nodes p us) in *.
    rewrite !filter_app. inversion Hnd as [|? ? Hn0 Hnd']; subst.
    pose proof (nodup_app_l _ _ Hnd') as Hnd1. pose proof (NoDup_app_r _ _ Hnd') as Hnd2.
    assert (Hdis : forall x, In x (flat_map preorder ts) -> In x (flat_map preorder us) -> False).
    { intros x Hx1 Hx2. now apply (NoDup_app_disj _ _ x Hnd'). }
    assert (Hku : forall x, In x (flat_map preorder us) -> kept x = mem x (flat_map preorder (keep_nodes p us))).
    { intros x Hx. rewrite Hkept by (right; apply in_app_iff; now right).
      destruct (eid_eqb e E_Style); [easy|]. cbn [app flat_map]. rewrite drained_kids. cbn [preorder].
      rewrite <- app_comm_cons, mem_cons, mem_app.
      destruct (Nat.eqb_spec x n) as [->|]; [exfalso; apply Hn0, in_app_iff; now right|].
      replace (mem x (flat_map preorder (keep_nodes p ts))) with false; [easy|]. symmetry. apply mem_not_In. intros Hi.
      apply keep_nodes_sub in Hi. now apply (Hdis x). }
    destruct (eid_eqb e E_Style) eqn:Ee.
    + cbn [app]. rewrite (filter_none _ (references P e n ds)), (filter_none _ l1).
      * cbn [app]. now apply IHl.
      * intros d Hd. destruct (built_nodes _ _ _ _ _ Hk d Hd) as (Hi & _).
        rewrite Hkept by (right; apply in_app_iff; now left). apply mem_not_In. intros Hi'. apply keep_nodes_sub in Hi'.
        now apply (Hdis (l_node d)).
      * intros d Hd. unfold references in Hd. apply in_flat_map in Hd. destruct Hd as (x & _ & Hx). destruct (meaning P e x); try easy.
        destruct Hx as [<-|[]]. cbn [l_node]. rewrite Hkept by now left. apply mem_not_In. intros Hi. apply keep_nodes_sub in Hi.
        apply Hn0, in_app_iff. now right.
    + cbn [app flat_map] in *. rewrite drained_kids in *. cbn [preorder] in *.
      rewrite (filter_all _ (references P e n ds)).
      * constructor; try easy.
        -- apply IHk; [easy|]. intros x Hx. rewrite Hkept by (right; apply in_app_iff; now left).
           rewrite <- app_comm_cons, mem_cons, mem_app.
           destruct (Nat.eqb_spec x n) as [->|]; [exfalso; apply Hn0, in_app_iff; now left|].
           replace (mem x (flat_map preorder (keep_nodes p us))) with false; [now rewrite orb_false_r|].
           symmetry. apply mem_not_In. intros Hi. apply keep_nodes_sub in Hi. now apply (Hdis x).
        -- now apply IHl.
      * intros d Hd. unfold references in Hd. apply in_flat_map in Hd. destruct Hd as (x & _ & Hx). destruct (meaning P e x); try easy.
        destruct Hx as [<-|[]]. cbn [l_node]. rewrite Hkept by now left. rewrite <- app_comm_cons, mem_cons, Nat.eqb_refl. easy.
  - assert (Epn : p n = false) by (apply Hp'; unfold is_element; now rewrite H1).
    cbn [flat_map no_style preorder app] in *. unfold keep_nodes in *. cbn [flat_map t_node] in *. rewrite Epn in *.
    fold (keep_nodes p us) in *. inversion Hnd as [|? ? Hn0 Hnd']; subst.
    cbn [app flat_map drained preorder] in *. constructor; try easy. apply IHl; [easy|].
    intros x Hx. rewrite Hkept by now right. rewrite mem_cons. destruct (Nat.eqb_spec x n) as [->|]; easy.
  - assert (Epn : p n = false) by (apply Hp'; unfold is_element; now rewrite H1).
    cbn [flat_map no_style preorder app] in *. unfold keep_nodes in *. cbn [flat_map t_node] in *. rewrite Epn in *.
    fold (keep_nodes p us) in *. inversion Hnd as [|? ? Hn0 Hnd']; subst.
    cbn [app flat_map drained preorder] in *. constructor; try easy. apply IHl; [easy|].
    intros x Hx. rewrite Hkept by now right. rewrite mem_cons. destruct (Nat.eqb_spec x n) as [->|]; easy.
Qed.

Lemma built_same P D D' l ts ls : built P D l ts ls -> (forall n, node_type D' n = node_type D n) ->
  (forall n, tag_name D' n = tag_name D n) -> (forall n, id_of D' n = id_of D n) -> (forall n, text_of D' n = text_of D n) ->
  (forall n, attributes D' n = attributes D n) -> built P D' l ts ls.
Proof.
  intros H E1 E2 E3 E4 E5. induction H; constructor; try (now rewrite ?E1, ?E2, ?E3, ?E4); try easy.
  intros q v. now rewrite E5.
Qed.
