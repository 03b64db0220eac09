(* prepare_text: the proofs. *)
From Coq Require Import String List Bool PeanoNat NArith Lia.
From Verif Require Import Base Ids Links Tree Iter ForestSpec ListFacts TreeProofs ForestFacts IterSpec IterProofs
  PruneFacts Data Attrs Slab SlabProofs NodeApi Doc AttrFacts LinkProofs AttrSpec DocSpec RemoveProofs History InvProofs
  HistoryProofs DrainProofs Text TextSpec TextFacts TextPure TextMixed Loops AimProofs.
Import ListNotations.
Open Scope nat_scope.
Open Scope list_scope.

Definition sattr (m : xmlspace) : attr := mkAttr (QId A_Space) (VString (space_value m)).

Section TextProofs.
Context (D0 : dom) (F : forest) (t0 : tree).
Context (HI : InvF D0 F) (HA : acyclic F) (HT : textual D0 F).
Context (Ht0 : tree_at F t0) (Hr0 : t_node t0 = droot D0).

Let W : wf_forest F := r_wf _ _ (iv_rep D0 F HI).

Definition all_stored : Prop := forall x, In x (preorder t0) -> storage_key D0 x <> None.
Definition tidy_call (o : op) (D : dom) : Prop := all_stored -> orderly o D.

Lemma t0_lt x : In x (preorder t0) -> x < fresh D0.
Proof. apply (tree_nodes_exist D0 F t0 HI Ht0). rewrite Hr0. apply (iv_rlt D0 F HI). Qed.

Record TInv (mk : nid -> option xmlspace) (s : tstate) : Prop := {
  ti_inv : InvF (fst s) F;
  ti_lk : lk (fst s) = lk D0;
  ti_fresh : fresh (fst s) = fresh D0;
  ti_root : droot (fst s) = droot D0;
  ti_store : store (fst s) = store D0;
  ti_key : forall n, storage_key (fst s) n = storage_key D0 n;
  ti_type : forall n, node_type (fst s) n = node_type D0 n;
  ti_tag : forall n, tag_name (fst s) n = tag_name D0 n;
  ti_id : forall n, id_of (fst s) n = id_of D0 n;
  ti_linked : forall n, linked_nodes (fst s) n = linked_nodes D0 n;
  ti_text : forall n, is_text D0 n = false -> text_of (fst s) n = text_of D0 n;
  ti_attrs : forall x, attributes (fst s) x = attributes D0 x ++ match mk x with Some m => [sattr m] | None => [] end;
  ti_mark : forall x, mk x <> None -> own_space D0 x = None /\ is_element D0 x = true /\ In x (preorder t0);
  ti_nodup : NoDup (snd s);
  ti_list : forall x, In x (snd s) <-> mk x <> None;
  ti_calls : calls tidy_call D0 (fst s)
}.

Lemma ti_start : TInv (fun _ => None) (D0, []).
Proof.
  split; cbn [fst snd]; try easy.
  - intros x. now rewrite app_nil_r.
  - constructor.
  - constructor.
Qed.

Lemma ti_is_text mk s n : TInv mk s -> is_text (fst s) n = is_text D0 n.
Proof. intros H. unfold is_text. now rewrite (ti_type mk s H). Qed.
Lemma ti_is_element mk s n : TInv mk s -> is_element (fst s) n = is_element D0 n.
Proof. intros H. unfold is_element. now rewrite (ti_type mk s H). Qed.

Lemma text_not_element n : is_text D0 n = true -> is_element D0 n = false.
Proof. unfold is_text, is_element. now destruct (node_type D0 n). Qed.

(* writing a text *)
Lemma ti_put mk D l n v : TInv mk (D, l) -> is_text D0 n = true -> In n (preorder t0) ->
  TInv mk (text_mut n v D, l) /\ forall x, text_of (text_mut n v D) x = if Nat.eqb x n then v else text_of D x.
Proof.
  intros H Hn Hin. pose proof (t0_lt n Hin) as Hlt. assert (HE := text_not_element n Hn).
  assert (Hd : forall m, dt (text_mut n v D) m = if Nat.eqb m n then set_text_field v (dt D m) else dt D m).
  { intros m. unfold text_mut, modify. cbn. rewrite upd_eq. destruct (Nat.eqb_spec m n) as [->|]; reflexivity. }
  destruct H. cbn [fst snd] in *.
  split; [|intros x; unfold text_of; rewrite Hd; now destruct (Nat.eqb x n)].
  split; cbn [fst snd]; try assumption.
  - apply InvF_data; [assumption|lia|easy| |easy]. unfold is_element. rewrite ti_type0. fold (is_element D0 n). congruence.
  - intros m. rewrite <- ti_key0. unfold storage_key. rewrite Hd. now destruct (Nat.eqb m n).
  - intros m. rewrite <- ti_type0. unfold node_type. rewrite Hd. now destruct (Nat.eqb m n).
  - intros m. rewrite <- ti_tag0. unfold tag_name. rewrite Hd. now destruct (Nat.eqb m n).
  - intros m. rewrite <- ti_id0. unfold id_of. rewrite Hd. now destruct (Nat.eqb m n).
  - intros m. rewrite <- ti_linked0. unfold linked_nodes. rewrite Hd. now destruct (Nat.eqb m n).
  - intros m Hm. rewrite <- ti_text0 by easy. unfold text_of. rewrite Hd. destruct (Nat.eqb_spec m n) as [->|]; [congruence|easy].
  - intros m. rewrite <- ti_attrs0. unfold attributes. rewrite Hd. now destruct (Nat.eqb m n).
  - eapply calls_trans; [exact ti_calls0|]. eapply (calls_step _ D (OTextMut n v)); [apply calls_nil| | | | |reflexivity]; try easy.
    + split; [|exact Logic.I]. intros m [<-|[]]. unfold exists_node. now rewrite ti_fresh0.
    + intros Hs. split; [|easy]. intros m [<-|[]]. rewrite ti_key0. now apply Hs.
Qed.

Lemma space_back m : space_of_string (space_value m) = m.
Proof. now destruct m. Qed.
Lemma space_iff v : (if str_eqb v (lit "preserve") then Preserve else Default) = space_of_string v.
Proof. reflexivity. Qed.

Lemma get_value_app l1 l2 name : attrs_get_value (l1 ++ l2) name =
  match attrs_get_value l1 name with Some v => Some v | None => attrs_get_value l2 name end.
Proof. induction l1 as [|a l1 IH]; [easy|]. cbn. now destruct (aname_eqb (a_name a) name). Qed.

Lemma no_own x : own_space D0 x = None -> attrs_get_value (attributes D0 x) (QId A_Space) = None.
Proof.
  unfold own_space. destruct (attrs_get_value _ _) as [v|] eqn:E; [|easy].
  apply (tx_space D0 F HT) in E. now destruct E as (s & ->).
Qed.

Definition eff (mk : nid -> option xmlspace) (m : xmlspace) (x : nid) : xmlspace :=
  match own_space D0 x with Some o => o | None => match mk x with Some k => k | None => m end end.

Lemma get_space mk s x m : TInv mk s -> is_element D0 x = true -> In x (preorder t0) ->
  exists mk' s', get_xmlspace x m s = Ok (eff mk m x, s') /\ TInv mk' s' /\
    (forall y, mk' y = mk y \/ (y = x /\ mk' y = Some (eff mk m x))) /\
    (own_space D0 x = None -> mk' x = Some (eff mk m x)) /\
    (forall y, text_of (fst s') y = text_of (fst s) y).
Proof.
  intros H He Hin. unfold get_xmlspace, eff. rewrite (ti_attrs mk s H), get_value_app.
  destruct (own_space D0 x) as [o|] eqn:Eo.
  - unfold own_space in Eo. destruct (attrs_get_value (attributes D0 x) (QId A_Space)) as [[]|]; try easy.
    injection Eo as Eo. rewrite space_iff, Eo. exists mk, s. split; [easy|]. split; [exact H|]. split; [now left|]. split; [easy|reflexivity].
  - rewrite (no_own x Eo). destruct (mk x) as [k|] eqn:Ek.
    + cbn. rewrite space_iff, space_back. exists mk, s. split; [easy|]. split; [exact H|]. split; [now left|]. split; [easy|reflexivity].
    + cbn [attrs_get_value]. unfold set_xmlspace.
      pose proof (set_attribute_checked_spec x (sattr m) (fst s) (iv_link _ _ (ti_inv mk s H))) as Hs.
      rewrite (ti_is_element mk s x H), He in Hs. specialize (Hs eq_refl). cbn [link_error a_value sattr link_target] in Hs.
      destruct Hs as (D' & E & Hf & Ha & Hl & HL).
      assert (ES : set_attribute x (sattr m) (fst s) = Ok D') by (unfold set_attribute; now rewrite E).
      fold (sattr m). rewrite ES. cbn [bind].
      exists (fun y => if Nat.eqb y x then Some m else mk y), (D', snd s ++ [x]).
      split; [easy|]. destruct (set_attribute_inv _ F x (sattr m) D' (ti_inv mk s H) ES) as (I' & _).
      assert (Hnm : attrs_get_value (attributes (fst s) x) (QId A_Space) = None).
      { rewrite (ti_attrs mk s H), Ek, app_nil_r. now apply no_own. }
      destruct H. cbn [fst snd] in *. destruct Hf. split; [|split; [|split]].
      * split; cbn [fst snd]; try congruence.
        -- intros n. rewrite Hl. cbn [link_target a_value sattr a_name]. unfold named_target. rewrite Hnm, app_nil_r. apply ti_linked0.
        -- intros n Hn. rewrite fr_text. now apply ti_text0.
        -- intros y. rewrite Ha, ti_attrs0. destruct (Nat.eqb_spec y x) as [->|]; [|easy].
           rewrite Ek, app_nil_r. rewrite drop_name_none; [easy|]. apply get_value_none. cbn [sattr a_name]. now apply no_own.
        -- intros y. destruct (Nat.eqb_spec y x) as [->|]; [easy|]. apply ti_mark0.
        -- assert (~ In x (snd s)) by (rewrite ti_list0; congruence). clear - H ti_nodup0.
           induction (snd s) as [|y l IH]; cbn; [now repeat constructor|]. inversion ti_nodup0; subst. constructor.
           ++ rewrite in_app_iff. intros [Hy|[->|[]]]; [easy|]. apply H. now left.
           ++ apply IH; [easy|]. intros Hx. apply H. now right.
        -- intros y. rewrite in_app_iff, ti_list0. cbn. destruct (Nat.eqb_spec y x) as [->|].
           ++ split; [easy|tauto].
           ++ split; [intros [|[]]; congruence|tauto].
        -- eapply calls_trans; [exact ti_calls0|].
           eapply (calls_step _ (fst s) (OSetAttribute x (sattr m))); [apply calls_nil| | | | |exact ES]; try easy.
           ++ split; [|exact Logic.I]. intros n [<-|[]]. unfold exists_node. rewrite ti_fresh0. now apply t0_lt.
           ++ intros Hs. split; [|easy]. intros n [<-|[]]. rewrite ti_key0. now apply Hs.
      * intros y. destruct (Nat.eqb_spec y x); tauto.
      * intros _. now rewrite Nat.eqb_refl.
      * intros y. apply fr_text.
Qed.

(* ---- inside of one text element *)
Definition inner (t : tree) : Prop := tree_at F t /\ incl (preorder t) (preorder t0) /\ is_element D0 (t_node t) = true.
Definition GI (m : xmlspace) (t : tree) (mk : nid -> option xmlspace) : Prop :=
  forall x, In x (preorder t) -> mk x = None \/ mk x = Some m.
Definition same_out (t : tree) (mk mk' : nid -> option xmlspace) : Prop :=
  forall x, ~ In x (preorder t) -> mk' x = mk x.

Lemma in_texts t n : In n (texts D0 t) <-> In n (preorder t) /\ is_text D0 n = true.
Proof. apply filter_In. Qed.

Lemma root_not_element : is_element D0 (droot D0) = false.
Proof.
  assert (H : node_type D0 (droot D0) = NRoot) by (apply (iv_root D0 F HI); [apply (iv_rlt D0 F HI)|reflexivity]).
  unfold is_element. now rewrite H.
Qed.

Lemma anc_root a r : parent_of F r = None -> anc_or_self F a r -> a = r.
Proof. intros Hp H. destruct H as [|a n p Hq _]; congruence. Qed.

Lemma inner_parent t n : inner t -> In n (preorder t) -> n <> t_node t ->
  exists p, parent_of F n = Some p /\ In p (preorder t) /\ is_element D0 p = true.
Proof.
  intros (Ht & Hi & He) Hn Hne. apply (preorder_iff F t n W Ht) in Hn.
  inversion Hn as [|? ? p Hp Ha]; subst; [easy|]. exists p. split; [easy|].
  split; [now apply (preorder_iff F t p W Ht)|]. destruct (tx_inner D0 F HT n p Hp) as [| ->]; [easy|].
  exfalso. apply anc_root in Ha; [|apply (tx_top D0 F HT)]. pose proof root_not_element. congruence.
Qed.
Lemma text_parent t n : inner t -> In n (texts D0 t) ->
  exists p, parent_of F n = Some p /\ In p (preorder t) /\ is_element D0 p = true.
Proof.
  intros Hi Hn. apply in_texts in Hn. destruct Hn as (Hn & Hx). apply inner_parent; try easy.
  intros ->. apply text_not_element in Hx. destruct Hi as (_ & _ & He). congruence.
Qed.

(* the mode of the parent of a text node *)
Lemma parent_space m t mk s n : inner t -> GI m t mk -> TInv mk s -> In n (texts D0 t) ->
  exists p mk' s', parent (t_links s) n = Some p /\ get_xmlspace p m s = Ok (tmode D0 F m n, s') /\
    TInv mk' s' /\ GI m t mk' /\ same_out t mk mk' /\ (forall y, text_of (fst s') y = text_of (fst s) y).
Proof.
  intros Hi G H Hn. destruct (text_parent t n Hi Hn) as (p & Hp & Hin & He).
  destruct (get_space mk s p m H He) as (mk' & s' & E & H' & Hmk & _ & Htx); [now apply Hi|].
  assert (Em : eff mk m p = tmode D0 F m n).
  { unfold eff, tmode, mode_at. rewrite Hp. destruct (own_space D0 p); [easy|]. destruct (G p Hin) as [->| ->]; easy. }
  exists p, mk', s'. split.
  { unfold t_links, parent. rewrite (ti_lk mk s H). rewrite (r_parent _ _ (iv_rep D0 F HI)). exact Hp. }
  rewrite Em in *. split; [easy|]. split; [easy|]. split; [|split; [|easy]].
  - intros x Hx. destruct (Hmk x) as [->|(-> & Ex)]; [now apply G|]. unfold GI in G. rewrite Ex. right. f_equal.
    unfold tmode, mode_at. rewrite Hp.
    assert (own_space D0 p = None) as ->; [|easy]. apply (ti_mark mk' s' H'). now rewrite Ex.
  - intros x Hx. destruct (Hmk x) as [->|(-> & _)]; easy.
Qed.

(* the first loop *)
Lemma trim_loop_spec m t mk s : inner t -> GI m t mk -> TInv mk s ->
  exists mk' s', for_descendants t_links (2 * enough (fst s)) (trim_child m) (traverse (t_node t)) s = Ok s' /\
    TInv mk' s' /\ GI m t mk' /\ same_out t mk mk' /\
    (forall x, text_of (fst s') x =
       if mem x (texts D0 t) then trim (text_of (fst s) x) (tmode D0 F m x) else text_of (fst s) x).
Proof.
  intros Hi G H. pose proof Hi as (Ht & Hincl & He).
  pose proof (preorder_nodup F t W Ht) as Hnd.
  set (P := fun (pre : list nid) (s' : tstate) => exists mk', TInv mk' s' /\ GI m t mk' /\ same_out t mk mk' /\
    (forall x, text_of (fst s') x =
       if mem x (filter (is_text D0) pre) then trim (text_of (fst s) x) (tmode D0 F m x) else text_of (fst s) x)).
  destruct (descendants_loop t_links (trim_child m) (lk D0) F t P (iv_rep D0 F HI) Ht) with
    (fuel := 2 * enough (fst s)) (s := s) as (s' & E & mk' & H').
  - intros pre s1 (mk1 & H1 & _). unfold t_links. apply (ti_lk mk1 s1 H1).
  - intros pre n post s1 Epre (mk1 & H1 & G1 & S1 & T1). unfold trim_child. rewrite (ti_is_text mk1 s1 n H1).
    destruct (is_text D0 n) eqn:En.
    + assert (Hn : In n (texts D0 t)).
      { apply in_texts. split; [|easy]. rewrite Epre. apply in_app_iff. right. now left. }
      destruct (parent_space m t mk1 s1 n Hi G1 H1 Hn) as (p & mk2 & s2 & Ep & Eg & H2 & G2 & S2 & T2).
      rewrite Ep. cbn [unwrap bind]. rewrite Eg. cbn [bind fst snd].
      unfold set_text. rewrite (ti_is_element mk2 s2 n H2), (text_not_element n En). cbn [bind].
      exists (text_mut n (trim (text_of (fst s2) n) (tmode D0 F m n)) (fst s2), snd s2). split; [reflexivity|].
      destruct s2 as [D2 l2]. cbn [fst snd] in *.
      destruct (ti_put mk2 D2 l2 n (trim (text_of D2 n) (tmode D0 F m n)) H2 En) as (H3 & T3).
      { apply Hincl. now apply in_texts in Hn. }
      exists mk2. split; [exact H3|]. split; [exact G2|]. split; [intros x Hx; now rewrite (S2 x Hx), (S1 x Hx)|].
      intros x. cbn [fst]. rewrite T3, filter_app. cbn [filter]. rewrite En, T2, T1.
      assert (Hnp : mem n (filter (is_text D0) pre) = false).
      { apply mem_not_In. intros Hx. apply filter_In in Hx. rewrite Epre in Hnd. apply NoDup_remove_2 in Hnd.
        apply Hnd. apply in_app_iff. now left. }
      destruct (Nat.eqb_spec x n) as [->|Hx].
      * rewrite Hnp. replace (mem n (filter (is_text D0) pre ++ [n])) with true; [easy|].
        symmetry. apply mem_In, in_app_iff. right. now left.
      * rewrite T2, T1. replace (mem x (filter (is_text D0) pre ++ [n])) with (mem x (filter (is_text D0) pre)); [easy|].
        apply bool_iff. rewrite !mem_In, in_app_iff. cbn. intuition congruence.
    + exists s1. split; [easy|]. exists mk1. split; [easy|]. split; [easy|]. split; [easy|].
      intros x. rewrite filter_app. cbn [filter]. now rewrite En, app_nil_r.
  - pose proof (tree_size D0 F t HI Ht). unfold enough. rewrite (ti_fresh mk s H).
    specialize (H0 (t0_lt _ (Hincl _ (preorder_self t)))). lia.
  - exists mk. split; [easy|]. split; [easy|]. split; [easy|]. intros x. reflexivity.
  - exists mk', s'. split; [exact E|exact H'].
Qed.

(* collect_text *)
Lemma flat_res_app {A B} (f : A -> res (list B)) (g : A -> list B) l :
  (forall x, In x l -> f x = Ok (g x)) -> flat_res f l = Ok (flat_map g l).
Proof.
  induction l as [|x l IH]; intros H; [easy|]. cbn [flat_res]. rewrite (H x (or_introl eq_refl)). cbn [bind].
  fold (flat_res f). rewrite IH; [easy|]. intros y Hy. apply H. now right.
Qed.

Lemma no_kids t n : tree_at F t -> t_node t = n -> is_element D0 n = false -> n <> droot D0 -> t_kids t = [].
Proof.
  intros Ht En He Hr. destruct (t_kids t) as [|c ts] eqn:Ek; [easy|]. exfalso.
  pose proof (tree_at_children F t Ht) as Hc. rewrite Ek, En in Hc.
  assert (Hp : parent_of F (t_node c) = Some n) by (apply (wf_child F W); rewrite Hc; now left).
  destruct (tx_inner D0 F HT _ _ Hp); congruence.
Qed.

Lemma collect_spec D t : lk D = lk D0 -> (forall n, node_type D n = node_type D0 n) -> tree_at F t ->
  forall fuel depth, length (preorder t) < fuel ->
  exists l, collect_text fuel D (t_node t) depth = Ok l /\ map fst l = filter (is_text D0) (flat_map preorder (t_kids t)) /\
    forall x d, In (x, d) l -> depth <= d /\ (depth = d <-> parent_of F x = Some (t_node t)).
Proof.
  intros El Ety. induction t as [n ts IH] using tree_ind'. intros Ht fuel depth Hf.
  destruct fuel as [|fuel]; [lia|]. cbn [collect_text t_node t_kids]. inversion Ht as [? ? E Hall]; subst.
  rewrite El, (children_list_eq (lk D0) F n (S fuel)).
  2:{ apply (iv_rep D0 F HI). }
  2:{ rewrite E, map_length. pose proof (kids_length (T n ts)). cbn [t_kids preorder] in *. lia. }
  cbn [bind]. rewrite E.
  assert (Hty : forall x, is_text D x = is_text D0 x /\ is_element D x = is_element D0 x).
  { intros x. unfold is_text, is_element. now rewrite Ety. }
  assert (Hpar : forall c, In c ts -> parent_of F (t_node c) = Some n).
  { intros c Hc. apply (wf_child F W). rewrite E. now apply in_map. }
  assert (Hsz : forall c, In c ts -> length (preorder c) < fuel).
  { intros c Hc. pose proof (kid_size (T n ts) c Hc). lia. }
  clear E Ht Hf. induction ts as [|c ts IHts]; [now exists []|].
  inversion IH; subst. inversion Hall; subst. cbn [map flat_res].
  assert (Hhead : exists l, (if is_text D (t_node c) then Ok [(t_node c, depth)]
     else if is_element D (t_node c) then collect_text fuel D (t_node c) (S depth) else Ok []) = Ok l /\
     map fst l = filter (is_text D0) (preorder c) /\
     forall x d, In (x, d) l -> depth <= d /\ (depth = d <-> parent_of F x = Some n)).
  { destruct (Hty (t_node c)) as (-> & ->).
    assert (Hr : t_node c <> droot D0).
    { intros Er. specialize (Hpar c (or_introl eq_refl)). rewrite Er, (tx_top D0 F HT) in Hpar. easy. }
    assert (Hpre : preorder c = t_node c :: flat_map preorder (t_kids c)) by now destruct c.
    rewrite Hpre. cbn [filter].
    destruct (is_text D0 (t_node c)) eqn:Ex.
    - rewrite (no_kids c (t_node c)); try easy; [|now apply text_not_element]. exists [(t_node c, depth)].
      split; [easy|]. split; [easy|]. intros x d [[= <- <-]|[]]. split; [easy|]. split; [intros _|easy]. apply Hpar. now left.
    - destruct (is_element D0 (t_node c)) eqn:Ee.
      + destruct (H1 H3 fuel (S depth)) as (l & El1 & El2 & El3). { apply Hsz. now left. }
        exists l. split; [exact El1|]. split; [exact El2|]. intros x d Hx. destruct (El3 x d Hx) as (Hd & _).
        split; [lia|]. split; [lia|]. intros Hxn. exfalso.
        assert (Hin : In x (filter (is_text D0) (flat_map preorder (t_kids c)))) by (rewrite <- El2; now apply (in_map fst) in Hx).
        apply filter_In in Hin. destruct Hin as (Hin & Hxt).
        assert (Hin' : In x (preorder c)) by (rewrite Hpre; now right).
        pose proof (preorder_anc F c x W H3 Hin') as Ha.
        inversion Ha as [? Ex'|? ? q Hq Ha']; subst; [congruence|]. assert (q = n) by congruence. subst q.
        apply (acyclic_no_loop F (t_node c) n HA Ha'). apply Hpar. now left.
      + rewrite (no_kids c (t_node c)); try easy. exists []. easy. }
  destruct Hhead as (l1 & -> & E1 & E1'). cbn [bind].
  destruct IHts as (l2 & E2 & E3 & E3'); try easy.
  { intros c' Hc'. apply Hpar. now right. }
  { intros c' Hc'. apply Hsz. now right. }
  fold (@flat_res nid (nid * nat)). rewrite E2. cbn [bind]. exists (l1 ++ l2). split; [easy|].
  split; [cbn [flat_map]; now rewrite map_app, filter_app, E1, E3|].
  intros x d Hx. apply in_app_iff in Hx. destruct Hx as [Hx|Hx]; [now apply E1'|now apply E3'].
Qed.

Lemma texts_kids t : is_element D0 (t_node t) = true -> texts D0 t = filter (is_text D0) (flat_map preorder (t_kids t)).
Proof.
  intros He. unfold texts. destruct t as [n ts]. cbn [preorder filter t_kids t_node] in *.
  destruct (is_text D0 n) eqn:E; [|easy]. apply text_not_element in E. congruence.
Qed.

(* one pair *)
Definition stepped (tx tx' : nid -> str) (n1 n2 : nid) (u : str * str) : Prop :=
  forall x, tx' x = if Nat.eqb x n1 then fst u else if Nat.eqb x n2 then snd u else tx x.

Lemma stepped_trans tx tx1 tx2 n1 n2 u v : n1 <> n2 -> stepped tx tx1 n1 n2 u -> stepped tx1 tx2 n1 n2 v -> stepped tx tx2 n1 n2 v.
Proof.
  intros Hn H1 H2 x. rewrite H2. destruct (Nat.eqb_spec x n1); [easy|]. destruct (Nat.eqb_spec x n2) as [->|]; [easy|].
  rewrite H1. apply Nat.eqb_neq in n, n0. now rewrite n, n0.
Qed.
Lemma stepped_refl tx n1 n2 : stepped tx tx n1 n2 (tx n1, tx n2).
Proof. intros x. destruct (Nat.eqb_spec x n1) as [->|]; [easy|]. destruct (Nat.eqb_spec x n2) as [->|]; easy. Qed.
Lemma stepped_at tx tx' n1 n2 u : n1 <> n2 -> stepped tx tx' n1 n2 u -> tx' n1 = fst u /\ tx' n2 = snd u.
Proof.
  intros Hn H. split; rewrite H; [now rewrite Nat.eqb_refl|]. rewrite Nat.eqb_refl.
  destruct (Nat.eqb_spec n2 n1); congruence.
Qed.

Section Pair.
Context (mk : nid -> option xmlspace) (l : list nid) (n1 n2 : nid).
Context (Hn : n1 <> n2) (X1 : is_text D0 n1 = true) (X2 : is_text D0 n2 = true)
        (I1 : In n1 (preorder t0)) (I2 : In n2 (preorder t0)).

Lemma put1 D v : TInv mk (D, l) -> TInv mk (text_mut n1 v D, l) /\
  stepped (text_of D) (text_of (text_mut n1 v D)) n1 n2 (v, text_of D n2).
Proof.
  intros H. destruct (ti_put mk D l n1 v H X1 I1) as (H' & E). split; [easy|]. intros x. rewrite E. cbn.
  destruct (Nat.eqb x n1); [easy|]. destruct (Nat.eqb_spec x n2) as [->|]; easy.
Qed.
Lemma put2 D v : TInv mk (D, l) -> TInv mk (text_mut n2 v D, l) /\
  stepped (text_of D) (text_of (text_mut n2 v D)) n1 n2 (text_of D n1, v).
Proof.
  intros H. destruct (ti_put mk D l n2 v H X2 I2) as (H' & E). split; [easy|]. intros x. rewrite E. cbn.
  destruct (Nat.eqb_spec x n2) as [->|]; [|destruct (Nat.eqb_spec x n1) as [->|]; easy].
  destruct (Nat.eqb_spec n2 n1); congruence.
Qed.
Lemma cut_first_ok D n : starts (text_of D n) = true -> cut_first n D = Ok (text_mut n (tl (text_of D n)) D).
Proof. intros H. apply starts_iff in H. destruct H as (t & E). unfold cut_first. rewrite E. reflexivity. Qed.

Lemma border_ok D d1 d2 m1 m2 : TInv mk (D, l) ->
  exists D', fix_border n1 n2 d1 d2 m1 m2 (last_byte (text_of D n1)) (first_byte (text_of D n2)) D = Ok D' /\
    TInv mk (D', l) /\
    stepped (text_of D) (text_of D') n1 n2 (pure_border (Nat.ltb d1 d2) m1 m2 (text_of D n1) (text_of D n2)).
Proof.
  intros H. unfold fix_border, pure_border. rewrite last_ends, first_starts.
  assert (Hid : exists D', Ok D = Ok D' /\ TInv mk (D', l) /\ stepped (text_of D) (text_of D') n1 n2 (text_of D n1, text_of D n2)).
  { exists D. split; [easy|]. split; [easy|apply stepped_refl]. }
  destruct (ends (text_of D n1)) eqn:E1; cbn [andb]; [|exact Hid].
  destruct (starts (text_of D n2)) eqn:E2; [|exact Hid].
  assert (H2 : exists D', cut_first n2 D = Ok D' /\ TInv mk (D', l) /\ stepped (text_of D) (text_of D') n1 n2 (text_of D n1, tl (text_of D n2))).
  { rewrite (cut_first_ok D n2 E2). eexists. split; [reflexivity|]. now apply put2. }
  destruct (Nat.ltb d1 d2), m1, m2; cbn [is_default andb negb]; try exact H2; try exact Hid.
  eexists. split; [reflexivity|]. now apply put1.
Qed.

Lemma ends_ok D0' D f l' m1 m2 (s1 s4 : bool) : TInv mk (D, l) ->
  (s1 = true -> text_of D n1 <> [] -> starts (text_of D n1) = true) ->
  is_space D0' = s1 -> forall D4, is_space D4 = s4 ->
  exists D', fix_ends f l' n1 n2 m1 m2 D0' D4 D = Ok D' /\ TInv mk (D', l) /\
    stepped (text_of D) (text_of D') n1 n2 (pure_ends f l' m1 m2 s1 s4 (text_of D n1, text_of D n2)).
Proof.
  intros H Hs E1 D4 E4. unfold fix_ends, pure_ends. rewrite E1, E4. cbn [fst snd].
  destruct (f && s1 && is_default m1 && negb (is_empty (text_of D n1))) eqn:C1.
  - rewrite !andb_true_iff in C1. destruct C1 as (((_ & C1) & _) & C2). apply empty_false in C2.
    rewrite (cut_first_ok D n1 (Hs C1 C2)). eexists. split; [reflexivity|]. now apply put1.
  - destruct (l' && s4 && negb (is_empty (text_of D n2)) && is_default m2).
    + eexists. split; [reflexivity|]. now apply put2.
    + exists D. split; [easy|]. split; [easy|apply stepped_refl].
Qed.

Lemma last_ok D l' c2 s2 : TInv mk (D, l) -> is_space c2 = s2 ->
  TInv mk (fix_last l' n1 n2 c2 D, l) /\
  stepped (text_of D) (text_of (fix_last l' n1 n2 c2 D)) n1 n2 (pure_last l' s2 (text_of D n1, text_of D n2)).
Proof.
  intros H E. unfold fix_last, pure_last. rewrite E, last_ends. cbn [fst snd].
  destruct (l' && s2 && _ && _ && _).
  - now apply put1.
  - split; [easy|apply stepped_refl].
Qed.
End Pair.

Definition is_nil {A} (l : list A) : bool := match l with [] => true | _ => false end.

Definition first_of (tx : nid -> str) (n1 : nid) (last : option nid) : nid :=
  if is_empty (tx n1) then match last with Some n => n | None => n1 end else n1.

Lemma pair_ok m t mk s f l' p1 p2 last : inner t -> GI m t mk -> TInv mk s ->
  In (fst p1) (texts D0 t) -> In (fst p2) (texts D0 t) -> fst p1 <> fst p2 ->
  (forall n, last = Some n -> In n (texts D0 t) /\ n <> fst p2) ->
  exists node1 last' mk' s', pair_step m f l' p1 p2 last s = Ok (last', s') /\
    TInv mk' s' /\ GI m t mk' /\ same_out t mk mk' /\
    (node1 = fst p1 \/ text_of (fst s) (fst p1) = [] /\ last = Some node1) /\
    (forall n, last' = Some n -> last = Some n \/ n = node1) /\
    node1 = first_of (text_of (fst s)) (fst p1) last /\ last' = (if negb (blank_str (text_of (fst s') node1)) then Some node1 else last) /\
    stepped (text_of (fst s)) (text_of (fst s')) node1 (fst p2)
      (pure_step f l' (Nat.ltb (snd p1) (snd p2)) (tmode D0 F m node1) (tmode D0 F m (fst p2))
         (text_of (fst s) node1) (text_of (fst s) (fst p2))).
Proof.
  intros Hi G H H1 H2 Hne Hlast. unfold pair_step.
  fold (first_of (text_of (fst s)) (fst p1) last). remember (first_of (text_of (fst s)) (fst p1) last) as node1 eqn:Efirst.
  assert (Hnode : (node1 = fst p1 \/ text_of (fst s) (fst p1) = [] /\ last = Some node1) /\ In node1 (texts D0 t) /\ node1 <> fst p2).
  { rewrite Efirst. unfold first_of. destruct (is_empty (text_of (fst s) (fst p1))) eqn:Ee; [|tauto]. apply is_empty_iff in Ee.
    destruct last as [n|]; [|tauto]. destruct (Hlast n eq_refl). tauto. }
  destruct Hnode as (Hn1 & Hin1 & Hn12).
  destruct (parent_space m t mk s node1 Hi G H Hin1) as (q1 & mk1 & s1 & Eq1 & Eg1 & T1 & G1 & S1 & X1).
  rewrite Eq1. cbn [unwrap bind]. rewrite Eg1. cbn [bind fst snd].
  destruct (parent_space m t mk1 s1 (fst p2) Hi G1 T1 H2) as (q2 & mk2 & s2 & Eq2 & Eg2 & T2 & G2 & S2 & X2).
  rewrite Eq2. cbn [unwrap bind]. rewrite Eg2. cbn [bind fst snd]. destruct s2 as [D2 l2]. cbn [fst snd] in *.
  assert (Htx : forall y, text_of D2 y = text_of (fst s) y) by (intros y; now rewrite X2, X1).
  apply in_texts in Hin1. apply in_texts in H2. destruct Hin1 as (P1 & Q1), H2 as (P2 & Q2).
  assert (J1 := proj1 (proj2 Hi) _ P1). assert (J2 := proj1 (proj2 Hi) _ P2).
  destruct (border_ok mk2 l2 node1 (fst p2) Hn12 Q1 Q2 J1 J2 D2 (snd p1) (snd p2) (tmode D0 F m node1) (tmode D0 F m (fst p2)) T2)
    as (D3 & -> & T3 & St3). cbn [bind].
  destruct (border_facts (Nat.ltb (snd p1) (snd p2)) (tmode D0 F m node1) (tmode D0 F m (fst p2)) (text_of D2 node1) (text_of D2 (fst p2)))
    as (_ & _ & B3 & _).
  destruct (stepped_at _ _ _ _ _ Hn12 St3) as (A1 & A2).
  set (pb := pure_border (Nat.ltb (snd p1) (snd p2)) (tmode D0 F m node1) (tmode D0 F m (fst p2)) (text_of D2 node1) (text_of D2 (fst p2))) in *.
  destruct (ends_ok mk2 l2 node1 (fst p2) Hn12 Q1 Q2 J1 J2 (first_byte (text_of D2 node1)) D3 f l'
    (tmode D0 F m node1) (tmode D0 F m (fst p2)) (starts (text_of D2 node1)) (ends (text_of D2 (fst p2))) T3)
    with (D4 := last_byte (text_of D2 (fst p2))) as (D4 & -> & T4 & St4).
  { intros Es Hne1. rewrite A1 in *. now apply B3. }
  { apply first_starts. }
  { apply last_ends. }
  cbn [bind].
  destruct (last_ok mk2 l2 node1 (fst p2) Q1 J1 D4 l' (last_byte (text_of D2 node1)) (ends (text_of D2 node1)) T4)
    as (T5 & St5). { apply last_ends. }
  destruct (stepped_at _ _ _ _ _ Hn12 St4) as (A3 & A4).
  eexists node1, _, mk2, _. split; [reflexivity|]. cbn [fst].
  split; [exact T5|]. split; [exact G2|]. split; [intros x Hx; now rewrite (S2 x Hx), (S1 x Hx)|]. split; [exact Hn1|].
  split.
  { intros n. destruct (negb _); [|tauto]. intros [= <-]. tauto. }
  split; [reflexivity|]. split; [reflexivity|].
  pose proof (stepped_trans _ _ _ _ _ _ _ Hn12 St3 (stepped_trans _ _ _ _ _ _ _ Hn12 St4 St5)) as St.
  rewrite A3, A4, A1, A2 in St. rewrite <- !surjective_pairing in St.
  unfold pure_step. rewrite <- !Htx. intros x. rewrite St. now rewrite <- Htx.
Qed.

(* the loop over pairs *)
Definition closed (m : xmlspace) (Q : list nid -> nid -> list nid -> (nid -> str) -> Prop) : Prop :=
  forall pre n1 n2 rest tx tx' node1 dl, Q pre n1 (n2 :: rest) tx ->
    (node1 = n1 \/ tx n1 = [] /\ In node1 pre) ->
    stepped tx tx' node1 n2 (pure_step (is_nil pre) (is_nil rest) dl (tmode D0 F m node1) (tmode D0 F m n2) (tx node1) (tx n2)) ->
    Q (pre ++ [n1]) n2 rest tx'.

(* the same with the depths and the last node that was not blank *)
Definition closedx (m : xmlspace) (Q : list nid -> nid * nat -> list (nid * nat) -> option nid -> (nid -> str) -> Prop) : Prop :=
  forall pre p1 p2 rest last tx tx', Q pre p1 (p2 :: rest) last tx -> (forall n, last = Some n -> In n pre) ->
    let node1 := first_of tx (fst p1) last in
    stepped tx tx' node1 (fst p2) (pure_step (is_nil pre) (is_nil rest) (Nat.ltb (snd p1) (snd p2))
      (tmode D0 F m node1) (tmode D0 F m (fst p2)) (tx node1) (tx (fst p2))) ->
    Q (pre ++ [fst p1]) p2 rest (if negb (blank_str (tx' node1)) then Some node1 else last) tx'.
Lemma closed_lift m Q : closed m Q -> closedx m (fun pre p1 rest _ tx => Q pre (fst p1) (map fst rest) tx).
Proof.
  intros H pre p1 p2 rest last tx tx' HQ Hl node1 St.
  apply (H pre (fst p1) (fst p2) (map fst rest) tx tx' node1 (Nat.ltb (snd p1) (snd p2)) HQ).
  - unfold node1, first_of. destruct (is_empty (tx (fst p1))) eqn:E; [|now left]. apply is_empty_iff in E.
    destruct last as [n|]; [|now left]. right. split; [easy|now apply Hl].
  - replace (is_nil (map fst rest)) with (is_nil rest) by now destruct rest. exact St.
Qed.
Lemma closedx_and m Q Q' : closedx m Q -> closedx m Q' -> closedx m (fun pre p1 rest last tx => Q pre p1 rest last tx /\ Q' pre p1 rest last tx).
Proof. intros H H' pre p1 p2 rest last tx tx' (A & A') Hl node1 St. split; [now apply (H _ _ _ _ _ tx)|now apply (H' _ _ _ _ _ tx)]. Qed.

Lemma pair_loop_okx m t Q : inner t -> closedx m Q -> forall rest pre p1 last mk s,
  GI m t mk -> TInv mk s -> NoDup (pre ++ fst p1 :: map fst rest) ->
  (forall x, In x (pre ++ fst p1 :: map fst rest) -> In x (texts D0 t)) ->
  (forall n, last = Some n -> In n pre) ->
  Q pre p1 rest last (text_of (fst s)) ->
  exists mk' s', pair_loop m (is_nil pre) p1 rest last s = Ok s' /\ TInv mk' s' /\ GI m t mk' /\ same_out t mk mk' /\
    exists pre' p' last', pre ++ fst p1 :: map fst rest = pre' ++ [fst p'] /\ Q pre' p' [] last' (text_of (fst s')).
Proof.
  intros Hi HQ. induction rest as [|p2 rest IH]; intros pre p1 last mk s G H Hnd Hin Hl HQ0.
  - exists mk, s. split; [easy|]. split; [easy|]. split; [easy|]. split; [easy|]. exists pre, p1, last. easy.
  - cbn [pair_loop map] in *.
    assert (Hd : forall x, In x (pre ++ [fst p1]) -> x <> fst p2).
    { intros x Hx ->. change (fst p1 :: fst p2 :: map fst rest) with ([fst p1] ++ fst p2 :: map fst rest) in Hnd.
      rewrite app_assoc in Hnd. apply NoDup_remove_2 in Hnd. apply Hnd. apply in_app_iff. now left. }
    destruct (pair_ok m t mk s (is_nil pre) (is_nil rest) p1 p2 last Hi G H) as (node1 & last' & mk1 & s1 & E & T1 & G1 & S1 & Hn1 & Hl1 & En1 & El1 & St).
    + apply Hin. apply in_app_iff. right. now left.
    + apply Hin. apply in_app_iff. right. right. now left.
    + apply Hd. apply in_app_iff. right. now left.
    + intros n ->. split; [apply Hin, in_app_iff; left; now apply Hl|apply Hd, in_app_iff; left; now apply Hl].
    + replace (match rest with [] => true | _ :: _ => false end) with (is_nil rest) by now destruct rest.
      rewrite E. cbn [bind fst snd].
      destruct (IH (pre ++ [fst p1]) p2 last' mk1 s1 G1 T1) as (mk2 & s2 & E2 & T2 & G2 & S2 & pre' & p' & last2 & Ep & HQ').
      * now rewrite <- app_assoc.
      * intros x. rewrite <- app_assoc. apply Hin.
      * intros n Hn. apply in_app_iff. destruct (Hl1 n Hn) as [Hn'| ->]; [left; now apply Hl|].
        destruct Hn1 as [->|(_ & Hx)]; [right; now left|left; now apply Hl].
      * rewrite El1, En1. apply (HQ pre p1 p2 rest last (text_of (fst s)) (text_of (fst s1)) HQ0 Hl). rewrite <- En1. exact St.
      * replace (is_nil (pre ++ [fst p1])) with false in E2 by now destruct pre.
        exists mk2, s2. split; [exact E2|]. split; [easy|]. split; [easy|].
        split; [intros x Hx; now rewrite (S2 x Hx), (S1 x Hx)|]. exists pre', p', last2. split; [|easy].
        rewrite <- Ep, <- app_assoc. reflexivity.
Qed.

(* every text of the group is shortened *)
Lemma closed_short m X tx0 : NoDup X -> closed m (fun pre n1 rest tx => X = pre ++ n1 :: rest /\
   forall x, if mem x X then shortened (tx0 x) (tx x) else tx x = tx0 x).
Proof.
  intros Hnd pre n1 n2 rest tx tx' node1 dl (EX & Hs) Hn1 St. split; [now rewrite <- app_assoc|].
  pose proof (step_short (is_nil pre) (is_nil rest) dl (tmode D0 F m node1) (tmode D0 F m n2) (tx node1) (tx n2)) as (Sh1 & Sh2).
  assert (M1 : mem node1 X = true).
  { apply mem_In. rewrite EX. apply in_app_iff. destruct Hn1 as [->|(_ & Hp)]; [right; now left|now left]. }
  assert (M2 : mem n2 X = true) by (apply mem_In; rewrite EX; apply in_app_iff; right; right; now left).
  intros x. rewrite St. specialize (Hs x). destruct (Nat.eqb_spec x node1) as [->|].
  - rewrite M1 in *. eapply shortened_trans; [exact Hs|exact Sh1].
  - destruct (Nat.eqb_spec x n2) as [->|]; [|exact Hs]. rewrite M2 in *. eapply shortened_trans; [exact Hs|exact Sh2].
Qed.

Lemma all_text_app tx a b : all_text tx (a ++ b) = all_text tx a ++ all_text tx b.
Proof. unfold all_text. now rewrite map_app, concat_app. Qed.
Lemma all_text_ext tx tx' l : (forall x, In x l -> tx x = tx' x) -> all_text tx l = all_text tx' l.
Proof. intros H. unfold all_text. f_equal. now apply map_ext_in. Qed.
Lemma all_text_one tx x l : all_text tx (x :: l) = tx x ++ all_text tx l.
Proof. reflexivity. Qed.

Lemma closed_solid m X tx0 : NoDup X -> (forall x, In x X -> tmode D0 F m x = Default) ->
  (forall a b, X = [a; b] -> starts (tx0 a) = false \/ ends (tx0 b) = false) ->
  closed m (fun pre n1 rest tx => X = pre ++ n1 :: rest /\
    (forall x, In x X -> solid (tx x) /\ ok2 (tx x) = true) /\
    nrm (all_text tx X) = nrm (all_text tx0 X) /\
    ok2 (all_text tx (pre ++ [n1])) = true /\
    (pre <> [] -> starts (all_text tx X) = false) /\
    (pre = [] -> forall x, tx x = tx0 x) /\
    (pre <> [] -> rest = [] -> ends (all_text tx X) = false)).
Proof.
  intros Hnd Hm Hedge pre n1 n2 rest tx tx' node1 dl (EX & Hs & Hw & Hk & Hlead & Hp0 & _) Hn1 St.
  assert (Hn1' : node1 = n1).
  { destruct Hn1 as [|(Hx & _)]; [easy|]. exfalso. destruct (Hs n1) as (Hsol & _).
    - rewrite EX. apply in_app_iff. right. now left.
    - now apply solid_ne in Hsol. }
  subst node1. clear Hn1.
  assert (In1 : In n1 X) by (rewrite EX; apply in_app_iff; right; now left).
  assert (In2 : In n2 X) by (rewrite EX; apply in_app_iff; right; right; now left).
  rewrite (Hm n1 In1), (Hm n2 In2) in St.
  assert (Hnd' := Hnd). rewrite EX in Hnd'.
  assert (Hp1 : ~ In n1 pre). { intros Hx. apply NoDup_remove_2 in Hnd'. apply Hnd'. apply in_app_iff. now left. }
  assert (H12 : n1 <> n2). { intros ->. apply NoDup_remove_2 in Hnd'. apply Hnd'. apply in_app_iff. right. now left. }
  change (n1 :: n2 :: rest) with ([n1] ++ n2 :: rest) in Hnd'. rewrite app_assoc in Hnd'.
  assert (Hp2 : ~ In n2 pre). { intros Hx. apply NoDup_remove_2 in Hnd'. apply Hnd'. apply in_app_iff. left. apply in_app_iff. now left. }
  assert (Hr2 : ~ In n2 rest). { intros Hx. apply NoDup_remove_2 in Hnd'. apply Hnd'. apply in_app_iff. now right. }
  assert (Hr1 : ~ In n1 rest).
  { intros Hx. rewrite EX in Hnd. apply NoDup_remove_2 in Hnd. apply Hnd. apply in_app_iff. right. now right. }
  destruct (Hs n1 In1) as (S1 & O1), (Hs n2 In2) as (S2 & O2).
  pose proof (step_solid (is_nil pre) (is_nil rest) dl (tx n1) (tx n2) O1 O2 S1 S2) as (N1 & N2 & N3 & N4).
  fold (dstep (is_nil pre) (is_nil rest) dl (tx n1) (tx n2)) in St.
  pose proof (step_short (is_nil pre) (is_nil rest) dl Default Default (tx n1) (tx n2)) as (Sh1 & Sh2).
  fold (dstep (is_nil pre) (is_nil rest) dl (tx n1) (tx n2)) in Sh1, Sh2.
  destruct (stepped_at _ _ _ _ _ H12 St) as (A1 & A2). rewrite <- A1, <- A2 in *.
  assert (Hout : forall x, x <> n1 -> x <> n2 -> tx' x = tx x).
  { intros x Hx1 Hx2. rewrite St. apply Nat.eqb_neq in Hx1, Hx2. now rewrite Hx1, Hx2. }
  assert (Epre : all_text tx' pre = all_text tx pre).
  { apply all_text_ext. intros x Hx. apply Hout; congruence. }
  assert (Erest : all_text tx' rest = all_text tx rest).
  { apply all_text_ext. intros x Hx. apply Hout; congruence. }
  assert (Eall : forall tx, all_text tx X = all_text tx pre ++ tx n1 ++ tx n2 ++ all_text tx rest).
  { intros tx1. rewrite EX, all_text_app. reflexivity. }
  assert (Fp : is_nil pre = true -> all_text tx pre = []) by (destruct pre; easy).
  assert (Lr : is_nil rest = true -> all_text tx rest = []) by (destruct rest; easy).
  assert (Sol : forall x, In x X -> solid (tx' x) /\ ok2 (tx' x) = true).
  { intros x Hx. destruct (Nat.eq_dec x n1) as [->|D1]; [split; [now apply (solid_short (tx n1))|now apply (ok2_short (tx n1))]|].
    destruct (Nat.eq_dec x n2) as [->|D2]; [split; [now apply (solid_short (tx n2))|now apply (ok2_short (tx n2))]|].
    rewrite Hout by easy. now apply Hs. }
  split; [now rewrite <- app_assoc|]. split; [exact Sol|]. split.
  { rewrite Eall, Epre, Erest. rewrite (N1 _ _ Fp Lr). now rewrite <- Eall. }
  split.
  { rewrite <- app_assoc. cbn [app]. rewrite all_text_app. rewrite !all_text_one, Epre. cbn [all_text map concat]. rewrite app_nil_r.
    apply (N2 _ Fp). rewrite all_text_app in Hk. cbn [all_text map concat] in Hk. now rewrite app_nil_r in Hk. }
  split; [|split].
  - intros _. destruct pre as [|p pre].
    + rewrite Eall. cbn [all_text map concat app]. rewrite starts_app; [now apply N3|]. now apply solid_ne, Sol.
    + specialize (Hlead ltac:(easy)). rewrite Eall in *. rewrite Epre. cbn [all_text map concat] in *.
      assert (Hne : tx p <> []). { apply solid_ne, Hs. rewrite EX. now left. }
      rewrite <- !app_assoc in *. rewrite starts_app in * by easy. exact Hlead.
  - now destruct pre.
  - intros _ ->. rewrite Eall. cbn [all_text map concat]. rewrite app_nil_r. rewrite app_assoc, ends_app; [|now apply solid_ne, Sol].
    apply N4; [easy|]. destruct pre as [|p pre]; [|now left]. cbn [is_nil andb]. 
    destruct (Hedge n1 n2 EX) as [He|He]; [left|right]; now rewrite Hp0.
Qed.

(* some texts may be a single space *)
Definition bad_pair (X : list (nid * nat)) (tx : nid -> str) : bool :=
  match X with
  | a :: b :: _ => bad_start true (Nat.ltb (snd a) (snd b)) (tx (fst a)) (tx (fst b))
  | _ => false
  end.
Definition bad_two (a b : nid * nat) (tx : nid -> str) : bool :=
  starts (tx (fst a)) && ends (tx (fst b)) &&
  negb (negb (str_eqb (tx (fst a)) [32%N]) && ends (tx (fst a)) && str_eqb (tx (fst b)) [32%N] && Nat.ltb (snd a) (snd b)).
Definition mixed_inv (X : list (nid * nat)) (tx0 : nid -> str) (pre : list nid) (p1 : nid * nat) (rest : list (nid * nat))
  (last : option nid) (tx : nid -> str) : Prop :=
  (exists prep, X = prep ++ p1 :: rest /\ pre = map fst prep) /\
  (forall x, In x (map fst rest) -> tx x = tx0 x) /\
  (pre = [] -> tx (fst p1) = tx0 (fst p1)) /\
  (tx (fst p1) = [] -> exists pre0 z, pre = pre0 ++ [z] /\ last = Some z /\ solid (tx z)) /\
  shortened (tx0 (fst p1)) (tx (fst p1)) /\
  nrm (all_text tx (map fst X)) = nrm (all_text tx0 (map fst X)) /\
  ok2 (all_text tx (pre ++ [fst p1])) = true /\
  (pre <> [] -> solid (all_text tx (pre ++ [fst p1])) /\ starts (all_text tx (pre ++ [fst p1])) = bad_pair X tx0) /\
  (pre <> [] -> rest = [] ->
     match X with
     | [a; b] => bad_pair X tx0 = false -> ends (all_text tx (map fst X)) = bad_two a b tx0
     | _ => ends (all_text tx (map fst X)) = false
     end).

Lemma visible_solid s : blank_str s = false -> solid s.
Proof.
  intros H. unfold blank_str in H. induction s as [|c s IH]; [easy|]. cbn [forallb] in H.
  destruct (is_white c) eqn:E; cbn [andb] in H.
  - destruct (IH H) as (x & Hx & Hn). exists x. split; [now right|easy].
  - exists c. split; [now left|]. now intros ->.
Qed.
Lemma visible_short s t : shortened s t -> blank_str s = false -> blank_str t = false.
Proof.
  intros (a & b & -> & Ha & Hb) H. unfold blank_str in *. rewrite !forallb_app in H.
  assert (Hw : forall l, Forall (fun c => c = 32%N) l -> forallb is_white l = true).
  { intros l Hl. induction Hl as [|x l -> _ IH]; [easy|]. cbn [forallb]. now rewrite IH. }
  rewrite (Hw a Ha), (Hw b Hb), andb_true_r in H. exact H.
Qed.
Lemma short_of_space t : shortened [32%N] t -> t = [] \/ t = [32%N].
Proof.
  intros (a & b & E & _). destruct a as [|x a]; cbn [app] in E.
  - destruct t as [|y t]; [now left|]. injection E as <- E. destruct t; [now right|]. easy.
  - injection E as _ E. destruct a; [|easy]. destruct t; [now left|]. easy.
Qed.
Lemma piece_short s t : piece s -> shortened s t -> t <> [] -> piece t.
Proof.
  intros (O & P) H Hne. split; [now apply (ok2_short s)|]. destruct P as [P| ->]; [left; now apply (solid_short s)|].
  right. apply short_of_space in H. now destruct H.
Qed.

Lemma closed_mixed m X tx0 : NoDup (map fst X) -> (forall x, In x (map fst X) -> tmode D0 F m x = Default) ->
  (forall x, In x (map fst X) -> piece (tx0 x)) ->
  (forall l1 x y l2, map fst X = l1 ++ x :: y :: l2 -> solid (tx0 y) \/ blank_str (tx0 x) = false) ->
  closedx m (mixed_inv X tx0).
Proof.
  intros Hnd Hm Hp Hadj pre p1 p2 rest last tx tx' ((prep & EX & Epre) & Hrest & Hfirst & Hempty & Hsh & Hw & Hok & Hlead & _) Hlast node1 St.
  destruct p1 as [n1 d1], p2 as [n2 d2]. cbn [fst snd] in *.
  assert (EM : map fst X = pre ++ n1 :: n2 :: map fst rest) by (rewrite EX, map_app, Epre; reflexivity).
  assert (In1 : In n1 (map fst X)) by (rewrite EM; apply in_app_iff; right; now left).
  assert (In2 : In n2 (map fst X)) by (rewrite EM; apply in_app_iff; right; right; now left).
  assert (Hnd' := Hnd). rewrite EM in Hnd'.
  assert (Hp1 : ~ In n1 pre). { intros Hx. apply NoDup_remove_2 in Hnd'. apply Hnd'. apply in_app_iff. now left. }
  assert (Hr1 : ~ In n1 (map fst rest)). { intros Hx. apply NoDup_remove_2 in Hnd'. apply Hnd'. apply in_app_iff. right. now right. }
  assert (H12 : n1 <> n2). { intros ->. apply NoDup_remove_2 in Hnd'. apply Hnd'. apply in_app_iff. right. now left. }
  assert (Hndp : NoDup pre) by (clear -Hnd'; induction pre as [|x pre IH]; [constructor|]; inversion Hnd' as [|? ? Hx Hn]; subst; constructor; [intros Hy; apply Hx, in_app_iff; now left|now apply IH]).
  assert (Hnd2 := Hnd'). change (n1 :: n2 :: map fst rest) with ([n1] ++ n2 :: map fst rest) in Hnd2. rewrite app_assoc in Hnd2.
  assert (Hp2 : ~ In n2 pre). { intros Hx. apply NoDup_remove_2 in Hnd2. apply Hnd2. apply in_app_iff. left. apply in_app_iff. now left. }
  assert (Hr2 : ~ In n2 (map fst rest)). { intros Hx. apply NoDup_remove_2 in Hnd2. apply Hnd2. apply in_app_iff. now right. }
  assert (Hrp : forall x, In x pre -> ~ In x (map fst rest)).
  { intros x Hx Hy. apply in_split in Hx. destruct Hx as (u & v & ->). rewrite <- app_assoc in Hnd'. cbn [app] in Hnd'.
    apply NoDup_remove_2 in Hnd'. apply Hnd'. apply in_app_iff. right. apply in_app_iff. right. right. now right. }
  assert (E2 : tx n2 = tx0 n2) by (apply Hrest; now left).
  (* the node in front of n2 *)
  assert (Node : exists preA, In node1 (pre ++ [n1]) /\ node1 <> n2 /\ ~ In node1 preA /\ ~ In n2 preA /\ (pre = [] -> preA = []) /\
    (forall ty : nid -> str, (forall x, x <> node1 -> x <> n2 -> ty x = tx x) -> all_text ty (pre ++ [n1]) = all_text ty preA ++ ty node1) /\
    piece (tx node1) /\ (solid (tx node1) \/ solid (tx0 n2)) /\ (blank_str (tx0 n1) = false -> node1 = n1) /\ tmode D0 F m node1 = Default /\
    (node1 = n1 \/ tx n1 = [])).
  { unfold node1, first_of. destruct (tx n1) as [|c s1] eqn:E1; cbn [is_empty].
    - destruct (Hempty eq_refl) as (pre0 & z & Ez & El & Sz). rewrite El. exists pre0.
      assert (Hz1 : z <> n1). { intros ->. apply Hp1. rewrite Ez. apply in_app_iff. right. now left. }
      assert (Hz2 : z <> n2). { intros ->. apply Hp2. rewrite Ez. apply in_app_iff. right. now left. }
      split; [rewrite Ez; apply in_app_iff; left; apply in_app_iff; right; now left|]. split; [easy|].
      split. { rewrite Ez in Hndp. apply NoDup_remove_2 in Hndp. now rewrite app_nil_r in Hndp. }
      split. { intros Hx. apply Hp2. rewrite Ez. apply in_app_iff. now left. }
      split; [intros ->; now destruct pre0|]. split.
      { intros ty Hty. rewrite Ez, all_text_app. cbn [all_text map concat]. rewrite app_nil_r, (Hty n1), E1, app_nil_r by auto.
        fold (all_text ty (pre0 ++ [z])). rewrite all_text_app. cbn [all_text map concat]. now rewrite app_nil_r. }
      assert (Oz : ok2 (tx z) = true).
      { rewrite Ez, !all_text_app in Hok. cbn [all_text map concat] in Hok. rewrite !app_nil_r, E1, app_nil_r in Hok. now apply ok2_app_r in Hok. }
      split; [split; [exact Oz|now left]|]. split; [now left|]. split.
      { intros Hv. rewrite <- E1 in Hsh. apply (visible_short _ _ Hsh) in Hv. rewrite E1 in Hv. easy. }
      split; [|now right]. apply Hm. rewrite EM, Ez. apply in_app_iff. left. apply in_app_iff. right. now left.
    - exists pre. split; [apply in_app_iff; right; now left|]. split; [easy|]. split; [easy|]. split; [easy|]. split; [easy|]. split.
      { intros ty _. rewrite all_text_app. cbn [all_text map concat]. now rewrite app_nil_r. }
      rewrite E1. split; [now apply (piece_short (tx0 n1)); [apply Hp| |]|]. split.
      { destruct (Hadj _ _ _ _ EM) as [Hs|Hs]; [now right|left]. apply visible_solid. now apply (visible_short (tx0 n1)). }
      split; [easy|]. split; [now apply Hm|now left]. }
  destruct Node as (preA & N1 & N2 & N3 & N4 & N5 & N6 & N7 & N8 & N9 & N10 & N11). clearbody node1.
  rewrite N10, (Hm n2 In2) in St.
  fold (dstep (is_nil pre) (is_nil rest) (Nat.ltb d1 d2) (tx node1) (tx n2)) in St.
  rewrite E2 in St.
  assert (Hout : forall x, x <> node1 -> x <> n2 -> tx' x = tx x).
  { intros x Hx1 Hx2. rewrite St. apply Nat.eqb_neq in Hx1, Hx2. now rewrite Hx1, Hx2. }
  pose proof (N6 tx ltac:(easy)) as A0. pose proof (N6 tx' Hout) as A1.
  destruct (stepped_at _ _ _ _ _ N2 St) as (T1 & T2).
  rewrite A0 in Hok, Hlead.
  pose proof (step_mixed (is_nil pre) (is_nil rest) (Nat.ltb d1 d2) (all_text tx preA) (tx node1) (tx0 n2) N7 (Hp n2 In2) N8 Hok) as SM.
  destruct SM as (M1 & M2 & M3 & M4 & M5 & M6 & M7).
  { destruct pre as [|x pre']; cbn [is_nil]; [now rewrite N5|]. now apply Hlead. }
  pose proof (step_short (is_nil pre) (is_nil rest) (Nat.ltb d1 d2) Default Default (tx node1) (tx0 n2)) as (Sh1 & Sh2).
  fold (dstep (is_nil pre) (is_nil rest) (Nat.ltb d1 d2) (tx node1) (tx0 n2)) in Sh1, Sh2.
  rewrite <- T1, <- T2 in *.
  assert (EA : all_text tx' preA = all_text tx preA) by (apply all_text_ext; intros x Hx; apply Hout; intros ->; easy).
  assert (Erest : all_text tx' (map fst rest) = all_text tx (map fst rest)).
  { apply all_text_ext. intros x Hx. apply Hout; [|now intros ->]. intros ->. apply in_app_iff in N1. destruct N1 as [N1|[N1|[]]].
    - now apply (Hrp node1).
    - subst n1. easy. }
  assert (Eall : forall ty : nid -> str, (forall x, x <> node1 -> x <> n2 -> ty x = tx x) ->
    all_text ty (map fst X) = all_text ty preA ++ ty node1 ++ ty n2 ++ all_text ty (map fst rest)).
  { intros ty Hty. rewrite EM. change (n1 :: n2 :: map fst rest) with ([n1] ++ n2 :: map fst rest). rewrite app_assoc, all_text_app.
    rewrite (N6 ty Hty), <- app_assoc. reflexivity. }
  assert (E12 : all_text tx' ((pre ++ [n1]) ++ [n2]) = all_text tx preA ++ tx' node1 ++ tx' n2).
  { rewrite all_text_app, A1, EA, <- app_assoc. cbn [all_text map concat]. now rewrite app_nil_r. }
  assert (Hne : pre ++ [n1] <> []) by now destruct pre.
  unfold mixed_inv. cbn [fst snd].
  split; [exists (prep ++ [(n1, d1)]); split; [now rewrite <- app_assoc|now rewrite map_app, Epre]|].
  split. { intros x Hx. rewrite <- (Hrest x (or_intror Hx)). apply Hout; [|now intros ->]. intros ->. apply in_app_iff in N1. destruct N1 as [N1|[N1|[]]].
    - now apply (Hrp node1).
    - subst n1. easy. }
  split; [easy|]. split.
  { intros En. assert (Hv : blank_str (tx0 n1) = false).
    { destruct (Hadj _ _ _ _ EM) as [Hs|Hs]; [|easy]. apply M4 in Hs. rewrite En in Hs. destruct Hs as (? & [] & _). }
    pose proof (N9 Hv) as Eq. subst node1. exists pre, n1. split; [easy|].
    assert (Hv' : blank_str (tx' n1) = false) by (apply (visible_short _ _ Sh1), (visible_short _ _ Hsh); exact Hv).
    rewrite Hv'. split; [easy|]. now apply visible_solid. }
  split; [exact Sh2|]. split.
  { rewrite (Eall tx' Hout), EA, Erest, <- Hw, (Eall tx) by easy. rewrite E2. apply M1. destruct rest; easy. }
  split; [rewrite E12; exact M2|]. split.
  { intros _. rewrite E12. split; [exact M3|]. rewrite M6. destruct pre as [|x pre']; cbn [is_nil].
    - unfold bad_pair. rewrite EX. destruct prep as [|? ?]; [|easy]. cbn [app fst snd].
      assert (node1 = n1) as -> by (destruct N1 as [N1|[]]; easy).
      now rewrite (Hfirst eq_refl).
    - now apply Hlead. }
  { intros _ ->. rewrite (Eall tx' Hout), EA. cbn [map all_text concat]. rewrite app_nil_r. cbn [is_nil] in *.
    destruct prep as [|p0 prep].
    - cbn [map] in Epre. subst pre. rewrite EX. cbn [app fst snd]. intros Hb. cbn [is_nil] in *.
      assert (node1 = n1) as -> by (destruct N1 as [N1|[]]; easy).
      assert (EpA : preA = []) by now apply N5. rewrite EpA. cbn [all_text map concat app].
      unfold bad_pair in Hb. cbn [fst snd] in Hb. unfold bad_two. cbn [fst snd].
      pose proof (step_two (Nat.ltb d1 d2) (tx0 n1) (tx0 n2) (Hp n1 In1) (Hp n2 In2)) as S2.
      rewrite T1, T2, (Hfirst eq_refl) in *. apply S2; [|exact Hb].
      exact N8.
    - assert (Epn : is_nil pre = false) by (rewrite Epre; reflexivity). rewrite Epn in *. cbn [andb] in M7.
      assert (Hend := M7 eq_refl (or_introl eq_refl)).
      rewrite EX. destruct prep as [|q0 [|r0 prep]]; cbn [app]; exact Hend. }
Qed.

(* texts in preserve mode are kept *)
Definition firm (m : xmlspace) (tx0 tx : nid -> str) (z : nid) : Prop :=
  solid (tx z) \/ tmode D0 F m z = Preserve /\ tx0 z <> [] /\ tx z = tx0 z.
Lemma firm_ne m tx0 tx z : firm m tx0 tx z -> tx z <> [].
Proof. intros [H|(_ & H & E)]; [now apply solid_ne|congruence]. Qed.
Lemma closed_keep m X z tx0 : NoDup X -> (exists l, X = l ++ [z]) ->
  closed m (fun pre n1 rest tx => X = pre ++ n1 :: rest /\ firm m tx0 tx z /\
    forall x, In x X -> tmode D0 F m x = Preserve -> tx x = tx0 x).
Proof.
  intros Hnd (l0 & EX0) pre n1 n2 rest tx tx' node1 dl (EX & Hz & Hs) Hn1 St.
  assert (M1 : In node1 X).
  { rewrite EX. apply in_app_iff. destruct Hn1 as [->|(_ & Hp)]; [right; now left|now left]. }
  assert (M2 : In n2 X) by (rewrite EX; apply in_app_iff; right; right; now left).
  assert (H12 : node1 <> n2).
  { rewrite EX in Hnd. change (n1 :: n2 :: rest) with ([n1] ++ n2 :: rest) in Hnd. rewrite app_assoc in Hnd.
    apply NoDup_remove_2 in Hnd. intros ->. apply Hnd. apply in_app_iff. left. apply in_app_iff.
    destruct Hn1 as [->|(_ & Hp)]; [right; now left|now left]. }
  destruct (stepped_at _ _ _ _ _ H12 St) as (A1 & A2).
  pose proof (step_short (is_nil pre) (is_nil rest) dl (tmode D0 F m node1) (tmode D0 F m n2) (tx node1) (tx n2)) as (Sh1 & Sh2).
  set (q := pure_step (is_nil pre) (is_nil rest) dl (tmode D0 F m node1) (tmode D0 F m n2) (tx node1) (tx n2)) in *.
  assert (K2 : tmode D0 F m n2 = Preserve -> tx' n2 = tx n2).
  { intros E. rewrite A2. unfold q. rewrite E. apply step_keep2. }
  assert (Hz' : n2 = z -> firm m tx0 tx' z).
  { intros <-. destruct Hz as [Hz|(Z1 & Z2 & Z3)].
    - left. rewrite A2. now apply (solid_short (tx n2)).
    - right. split; [easy|]. split; [easy|]. now rewrite K2. }
  assert (El : is_nil rest = true -> n2 = z).
  { destruct rest; [|easy]. intros _. rewrite EX in EX0.
    replace (pre ++ [n1; n2]) with ((pre ++ [n1]) ++ [n2]) in EX0 by now rewrite <- app_assoc.
    now apply app_inj_tail in EX0. }
  assert (K1 : tmode D0 F m node1 = Preserve -> tx' node1 = tx node1).
  { intros E. rewrite A1. unfold q in *. rewrite E in *. apply step_keep1. intros Hl. rewrite <- A2.
    pose proof (El Hl). subst n2. apply (firm_ne m tx0 tx' z). now apply Hz'. }
  split; [now rewrite <- app_assoc|]. split.
  - destruct (Nat.eq_dec z n2) as [Ez|Nz]; [now apply Hz'|].
    destruct (Nat.eq_dec z node1) as [->|Nz1].
    + destruct Hz as [Hz|(Z1 & Z2 & Z3)].
      * left. rewrite A1. now apply (solid_short (tx node1)).
      * right. split; [easy|]. split; [easy|]. now rewrite K1.
    + unfold firm. rewrite St. apply Nat.eqb_neq in Nz, Nz1. rewrite Nz, Nz1. exact Hz.
  - intros x Hx Hm. destruct (Nat.eq_dec x node1) as [->|N1]; [now rewrite K1, Hs|].
    destruct (Nat.eq_dec x n2) as [->|N2]; [now rewrite K2, Hs|].
    rewrite St. apply Nat.eqb_neq in N1, N2. rewrite N1, N2. now apply Hs.
Qed.

(* a single text *)
Lemma single_ok mk D l n : TInv mk (D, l) -> is_text D0 n = true -> In n (preorder t0) -> ok2 (text_of D n) = true ->
  exists D', single_text n Default D = Ok D' /\ TInv mk (D', l) /\
    forall x, text_of D' x = if Nat.eqb x n then nrm (text_of D n) else text_of D x.
Proof.
  intros H Hx Hin Ho. unfold single_text. cbn [is_default].
  assert (Hid : nrm (text_of D n) = text_of D n -> exists D', Ok D = Ok D' /\ TInv mk (D', l) /\
    forall x, text_of D' x = if Nat.eqb x n then nrm (text_of D n) else text_of D x).
  { intros E. exists D. split; [easy|]. split; [easy|]. intros x. rewrite E. destruct (Nat.eqb_spec x n) as [->|]; easy. }
  assert (Hput : forall v, nrm (text_of D n) = v -> exists D', Ok (text_mut n v D) = Ok D' /\ TInv mk (D', l) /\
    forall x, text_of D' x = if Nat.eqb x n then nrm (text_of D n) else text_of D x).
  { intros v E. destruct (ti_put mk D l n v H Hx Hin) as (H' & T'). eexists. split; [reflexivity|]. split; [exact H'|].
    intros x. rewrite T'. now rewrite E. }
  destruct (length (utf8 (text_of D n))) as [|[|k]] eqn:El.
  - apply utf8_length in El. apply Hid. now rewrite El.
  - apply utf8_one in El. destruct El as (c & Ec). rewrite first_starts.
    destruct (starts (text_of D n)) eqn:Es.
    + apply Hput. rewrite Ec in *. apply starts_iff in Es. destruct Es as (v & Ev). injection Ev as -> _. reflexivity.
    + apply Hid. apply nrm_id; [easy|now apply starts_false|]. apply ends_false. rewrite Ec in *. exact Es.
  - rewrite first_starts, last_ends.
    assert (Hlong : text_of D n <> [32%N]) by (intros E; rewrite E in El; easy).
    destruct (starts (text_of D n)) eqn:Es.
    + rewrite (cut_first_ok D n Es). cbn [bind]. assert (Es' := Es). apply starts_iff in Es'. destruct Es' as (v & Ev).
      destruct (ti_put mk D l n (tl (text_of D n)) H Hx Hin) as (H1 & T1).
      assert (Hv : v <> []) by (intros ->; congruence).
      assert (Ee : ends (text_of D n) = ends v) by (rewrite Ev; now apply (ends_app [32%N] v)).
      assert (Lv : starts v = false) by (pose proof (tl_no_lead _ Ho Es) as Hq; now rewrite Ev in Hq).
      assert (Ov : ok2 v = true) by (rewrite Ev in Ho; now apply ok2_tail in Ho).
      assert (En : nrm (text_of D n) = nrm v) by (rewrite Ev; apply nrm_32).
      assert (Etl : tl (text_of D n) = v) by now rewrite Ev. rewrite Etl in *.
      destruct (ends (text_of D n)) eqn:E2.
      * destruct (ti_put mk _ l n (remove_last (text_of (text_mut n v D) n)) H1 Hx Hin) as (H2 & T2).
        eexists. split; [reflexivity|]. split; [exact H2|]. intros x. unfold cut_last. rewrite T2, T1.
        destruct (Nat.eqb_spec x n) as [->|Hxn]; [|rewrite T1; apply Nat.eqb_neq in Hxn; now rewrite Hxn].
        rewrite Nat.eqb_refl, En. symmetry in Ee. assert (Ee' := Ee). apply ends_iff in Ee'. destruct Ee' as (w & Ew).
        unfold remove_last. rewrite Ew. rewrite removelast_last. rewrite nrm_snoc. symmetry. apply nrm_id.
        -- rewrite Ew in Ov. now apply ok2_app_l in Ov.
        -- apply starts_false. rewrite Ew in Lv. destruct w; [discriminate|exact Lv].
        -- apply ends_false. pose proof (removelast_no_trail v Ov Ee) as Hq. now rewrite Ew, removelast_last in Hq.
      * eexists. split; [reflexivity|]. split; [exact H1|]. intros x. rewrite T1. destruct (Nat.eqb x n); [|easy].
        rewrite En. symmetry. apply nrm_id; [easy|now apply starts_false|]. apply ends_false. congruence.
    + cbn [bind]. destruct (ends (text_of D n)) eqn:E2; [|apply Hid, nrm_id; [easy|now apply starts_false|now apply ends_false]].
      unfold cut_last. apply Hput. assert (E2' := E2). apply ends_iff in E2'. destruct E2' as (w & Ew).
      unfold remove_last. pose proof (removelast_no_trail _ Ho E2) as Hq. rewrite Ew in *. rewrite removelast_last in *. rewrite nrm_snoc.
      apply nrm_id; [now apply ok2_app_l in Ho| |now apply ends_false].
      apply starts_false. destruct w; [easy|exact Es].
Qed.

Lemma opens_texts t c ts : inner t -> t_kids t = c :: ts -> is_text D0 (t_node c) = true ->
  exists l, texts D0 t = t_node c :: l /\ parent_of F (t_node c) = Some (t_node t).
Proof.
  intros (Ht & _ & He) Ek Hc. rewrite (texts_kids t He), Ek. cbn [flat_map]. rewrite filter_app.
  destruct c as [n us]. cbn [t_node preorder] in *. cbn [filter]. rewrite Hc. eexists. split; [reflexivity|].
  apply (wf_child F W). rewrite (tree_at_children F t Ht), Ek. now left.
Qed.

Lemma texts_nodup t : tree_at F t -> NoDup (texts D0 t).
Proof. intros Ht. unfold texts. apply NoDup_filter. now apply (preorder_nodup F t). Qed.

(* a trimmed text *)
Lemma spaced_white s c : In c (spaced s) -> c = 32%N \/ In c s /\ white c = false.
Proof.
  unfold spaced. intros H. apply in_map_iff in H. destruct H as (x & <- & Hx). destruct (white x) eqn:E; [now left|now right].
Qed.
Lemma inked_dec s : inked s \/ ~ inked s.
Proof.
  destruct (existsb (fun c => negb (white c)) s) eqn:E; [left|right].
  - apply existsb_exists in E. destruct E as (c & Hc & Hn). exists c. split; [easy|]. now destruct (white c).
  - intros (c & Hc & Hw). assert (existsb (fun c => negb (white c)) s = true) by (apply existsb_exists; exists c; now rewrite Hw). congruence.
Qed.
Lemma clean_solid s : inked s -> solid (collapse (spaced s)).
Proof. intros (c & Hc & Hw). rewrite <- trim_default. exists c. split; [now apply trim_in|]. now intros ->. Qed.
Lemma clean_blank s : s <> [] -> ~ inked s -> collapse (spaced s) = [32%N].
Proof.
  intros Hne Hn. induction s as [|c s IH]; [easy|].
  assert (Ec : white c = true). { destruct (white c) eqn:E; [easy|]. destruct Hn. exists c. split; [now left|easy]. }
  assert (Hs : ~ inked s). { intros (x & Hx & Hw). apply Hn. exists x. split; [now right|easy]. }
  unfold spaced in *. cbn [map]. rewrite Ec. destruct s as [|d s]; [reflexivity|].
  assert (Ed : white d = true). { destruct (white d) eqn:E; [easy|]. destruct Hs. exists d. split; [now left|easy]. }
  specialize (IH ltac:(easy) Hs). cbn [map] in *. rewrite Ed in *. exact IH.
Qed.
Lemma clean_space s : s <> [] -> collapse (spaced s) = [32%N] <-> ~ inked s.
Proof.
  intros Hne. split; [|now apply clean_blank]. intros E H. apply clean_solid in H. rewrite E in H. now apply not_solid_space in H.
Qed.
Lemma clean_piece s : s <> [] -> piece (collapse (spaced s)).
Proof.
  intros H. split; [apply collapse_ok2|]. destruct (inked_dec s) as [Hi|Hi]; [left; now apply clean_solid|right; now apply clean_blank].
Qed.
Lemma clean_visible s : visible s -> blank_str (collapse (spaced s)) = false.
Proof.
  intros (c & Hc & Hw). apply not_true_iff_false. unfold blank_str. rewrite forallb_forall. intros H.
  assert (Hwh : white c = false). { destruct (white c) eqn:E; [|easy]. unfold white in E. rewrite !orb_true_iff, !N.eqb_eq in E.
    destruct E as [[[->| ->]| ->]| ->]; easy. }
  rewrite <- trim_default in H. specialize (H c (trim_in c s Hwh Hc)). congruence.
Qed.
Lemma clean_starts s : starts (collapse (spaced s)) = true <-> lead_white s.
Proof.
  unfold starts. pose proof (collapse_hd (spaced s)) as H. destruct s as [|c s].
  - split; [easy|]. intros (c & u & E & _). easy.
  - unfold spaced in *. cbn [map] in *. destruct (collapse _) as [|x r]; [easy|]. injection H as ->.
    destruct (white c) eqn:Ew.
    + split; [|easy]. intros _. now exists c, s.
    + rewrite N.eqb_eq. split; [intros ->; easy|]. intros (y & u & [= <- <-] & Hw). congruence.
Qed.
Lemma clean_ends s : ends (collapse (spaced s)) = true <-> trail_white s.
Proof.
  unfold ends. rewrite <- collapse_rev. unfold spaced. rewrite <- map_rev. fold (spaced (rev s)). rewrite clean_starts. split.
  - intros (c & u & E & Hw). exists c, (rev u). split; [|easy]. rewrite <- (rev_involutive s), E. reflexivity.
  - intros (c & u & -> & Hw). exists c, (rev u). split; [now rewrite rev_app_distr|easy].
Qed.
Lemma normal_iff w : ok2 w = true -> w = nrm w <-> starts w = false /\ ends w = false.
Proof.
  intros Ho. split.
  - intros E. rewrite starts_false, ends_false, E. unfold nrm. split.
    + rewrite rl_swap. apply lstrip_no_lead.
    + apply no_trail_rev. unfold rstrip. rewrite rev_involutive. apply lstrip_no_lead.
  - intros (Hs & He). symmetry. apply nrm_id; [easy|now apply starts_false|now apply ends_false].
Qed.

Lemma group_ok m t c ts mk s : inner t -> t_kids t = c :: ts -> is_text D0 (t_node c) = true ->
  mode_at D0 m (t_node t) = m -> GI m t mk -> TInv mk s ->
  exists mk' s', prepare_text_children (t_node t) m s = Ok s' /\ TInv mk' s' /\ same_out t mk mk' /\
    group_effect D0 F m t (text_of (fst s)) (text_of (fst s')) /\
    (forall x, ~ In x (texts D0 t) -> text_of (fst s') x = text_of (fst s) x).
Proof.
  intros Hi Ek Hc Hm G H. pose proof Hi as (Ht & Hincl & He).
  unfold prepare_text_children.
  destruct (trim_loop_spec m t mk s Hi G H) as (mk1 & s1 & E1 & T1 & G1 & S1 & X1). rewrite E1. cbn [bind].
  destruct (collect_spec (fst s1) t (ti_lk _ _ T1) (ti_type _ _ T1) Ht (2 * enough (fst s)) 0) as (l & E2 & El & Edep).
  { pose proof (tree_size D0 F t HI Ht (t0_lt _ (Hincl _ (preorder_self t)))). unfold enough. rewrite (ti_fresh mk s H). lia. }
  rewrite E2. cbn [bind]. rewrite <- (texts_kids t He) in El.
  destruct (opens_texts t c ts Hi Ek Hc) as (l' & Etx & Epar).
  pose proof (texts_nodup t Ht) as Hnd.
  assert (Hin0 : forall x, In x (texts D0 t) -> is_text D0 x = true /\ In x (preorder t0)).
  { intros x Hx. apply in_texts in Hx. split; [easy|]. now apply Hincl. }
  assert (Hmem : forall x, In x (texts D0 t) -> text_of (fst s1) x = trim (text_of (fst s) x) (tmode D0 F m x)).
  { intros x Hx. rewrite X1. apply mem_In in Hx. now rewrite Hx. }
  assert (Hout : forall x, ~ In x (texts D0 t) -> text_of (fst s1) x = text_of (fst s) x).
  { intros x Hx. rewrite X1. apply mem_not_In in Hx. now rewrite Hx. }
  destruct l as [|p1 [|p2 rest]].
  - rewrite Etx in El. easy.
  - (* one text *)
    cbn [map] in El. rewrite Etx in El. injection El as Ep Enil. subst l'.
    assert (Emode : tmode D0 F m (t_node c) = m) by (unfold tmode; now rewrite Epar, Hm).
    assert (Hc1 : In (t_node c) (texts D0 t)) by (rewrite Etx; now left).
    destruct (Hin0 _ Hc1) as (Hx & Hp). rewrite Ep.
    destruct s1 as [D1 l1]. cbn [fst snd] in *.
    destruct m.
    + destruct (single_ok mk1 D1 l1 (t_node c) T1 Hx Hp) as (D2 & E3 & T2 & X2).
      { rewrite (Hmem _ Hc1), Emode, trim_default. apply collapse_ok2. }
      rewrite E3. cbn [bind]. exists mk1, (D2, l1). split; [easy|]. split; [easy|]. split; [easy|]. cbn [fst].
      assert (Er : text_of D2 (t_node c) = normal (text_of (fst s) (t_node c))).
      { rewrite X2, Nat.eqb_refl, (Hmem _ Hc1), Emode, trim_default, nrm_collapse. now rewrite normal_nrm. }
      split; [split|].
      * intros n Hn. rewrite Etx in Hn. destruct Hn as [<-|[]]. rewrite <- trim_clean, Er, Emode, trim_default. unfold normal.
        set (u := collapse _). destruct (lstrip_suffix u) as (a & Ea & Fa). unfold rstrip.
        destruct (lstrip_suffix (rev (lstrip u))) as (b & Eb & Fb). exists a, (rev b).
        split; [|split; [easy|now apply Forall_rev]]. apply (f_equal (@rev chr)) in Eb. rewrite rev_involutive, rev_app_distr in Eb.
        rewrite <- Eb. exact Ea.
      * intros n Hn. rewrite Etx in Hn. injection Hn as <-. exact Er.
      * intros a b l Hab. rewrite Etx in Hab. easy.
      * intros a b l Hab. rewrite Etx in Hab. easy.
      * intros n z l _ Hn Hpm _. rewrite Etx in Hn. destruct Hn as [<-|[]]. congruence.
      * intros x Hx'. rewrite X2. destruct (Nat.eqb_spec x (t_node c)) as [->|]; [easy|]. now apply Hout.
    + cbn [single_text is_default bind]. exists mk1, (D1, l1). split; [easy|]. split; [easy|]. split; [easy|]. cbn [fst].
      split; [split|].
      * intros n Hn. rewrite <- trim_clean, (Hmem n Hn). apply shortened_refl.
      * intros n Hn. rewrite Etx in Hn. injection Hn as <-. now rewrite (Hmem _ Hc1), Emode, trim_preserve.
      * intros a b l Hab. rewrite Etx in Hab. easy.
      * intros a b l Hab. rewrite Etx in Hab. easy.
      * intros n z l _ Hn Hpm _. now rewrite (Hmem n Hn), Hpm, trim_preserve.
      * exact Hout.
  - (* many texts *)
    set (Q := fun pre n1 rest tx =>
      (texts D0 t = pre ++ n1 :: rest /\
       forall x, if mem x (texts D0 t) then shortened (text_of (fst s1) x) (tx x) else tx x = text_of (fst s1) x) /\
      ((forall x, In x (texts D0 t) -> tmode D0 F m x = Default) ->
       (forall a b, texts D0 t = [a; b] -> starts (text_of (fst s1) a) = false \/ ends (text_of (fst s1) b) = false) ->
       (forall x, In x (texts D0 t) -> solid (text_of (fst s1) x) /\ ok2 (text_of (fst s1) x) = true) ->
       texts D0 t = pre ++ n1 :: rest /\
    (forall x, In x (texts D0 t) -> solid (tx x) /\ ok2 (tx x) = true) /\
    nrm (all_text tx (texts D0 t)) = nrm (all_text (text_of (fst s1)) (texts D0 t)) /\
    ok2 (all_text tx (pre ++ [n1])) = true /\
    (pre <> [] -> starts (all_text tx (texts D0 t)) = false) /\
    (pre = [] -> forall x, tx x = text_of (fst s1) x) /\
    (pre <> [] -> rest = [] -> ends (all_text tx (texts D0 t)) = false)) /\
      (forall z, (exists l, texts D0 t = l ++ [z]) -> firm m (text_of (fst s1)) (text_of (fst s1)) z ->
       texts D0 t = pre ++ n1 :: rest /\ firm m (text_of (fst s1)) tx z /\
       forall x, In x (texts D0 t) -> tmode D0 F m x = Preserve -> tx x = text_of (fst s1) x)).
    assert (HQ : closed m Q).
    { intros pre n1 n2 r tx tx' node1 dl (HQ1 & HQ2 & HQ3) Hn1 St. split; [|split; [|intros z Hz Hfz;
        exact (closed_keep m (texts D0 t) z (text_of (fst s1)) Hnd Hz pre n1 n2 r tx tx' node1 dl (HQ3 z Hz Hfz) Hn1 St)]].
      - exact (closed_short m (texts D0 t) (text_of (fst s1)) Hnd pre n1 n2 r tx tx' node1 dl HQ1 Hn1 St).
      - intros Hdef Hedge Hsol. exact (closed_solid m (texts D0 t) (text_of (fst s1)) Hnd Hdef Hedge pre n1 n2 r tx tx' node1 dl
          (HQ2 Hdef Hedge Hsol) Hn1 St). }
    set (X := p1 :: p2 :: rest). assert (EX : map fst X = texts D0 t) by exact El.
    set (mixed := (forall x, In x (map fst X) -> tmode D0 F m x = Default) /\
      (forall x, In x (map fst X) -> piece (text_of (fst s1) x)) /\
      (forall l1 x y l2, map fst X = l1 ++ x :: y :: l2 -> solid (text_of (fst s1) y) \/ blank_str (text_of (fst s1) x) = false)).
    assert (HQx : closedx m (fun pre p1 rest last tx => Q pre (fst p1) (map fst rest) tx /\
       (mixed -> mixed_inv X (text_of (fst s1)) pre p1 rest last tx))).
    { apply closedx_and; [now apply closed_lift|]. intros pre q1 q2 r last tx tx' HQm Hl node1 St (M1 & M2 & M3).
      apply (closed_mixed m X (text_of (fst s1)) ltac:(rewrite EX; exact Hnd) M1 M2 M3 pre q1 q2 r last tx tx'); [now apply HQm|exact Hl|exact St]. }
    cbn [map] in El.
    destruct (pair_loop_okx m t _ Hi HQx (p2 :: rest) [] p1 None mk1 s1 G1 T1) as (mk2 & s2 & E3 & T2 & G2 & S2 & pre' & p' & last' & Ep & ((HQ1 & HQ2 & HQ3) & HQm)).
    + cbn [app map]. rewrite El. exact Hnd.
    + cbn [app map]. rewrite El. easy.
    + easy.
    + cbn [map]. split; [split; [|split; [|intros z Hz Hfz; split; [now rewrite <- El|easy]]]|].
      * split; [now rewrite <- El|]. intros x. destruct (mem x (texts D0 t)); [apply shortened_refl|easy].
      * intros Hdef Hedge Hsol. split; [now rewrite <- El|]. split; [exact Hsol|]. split; [easy|]. split.
        { cbn [app all_text map concat]. rewrite app_nil_r. apply Hsol. rewrite <- El. now left. }
        split; [easy|]. split; [easy|]. easy.
      * intros (_ & Hpc & _). unfold mixed_inv. split; [now exists []|]. split; [easy|]. split; [easy|].
        assert (Hp1 : piece (text_of (fst s1) (fst p1))) by (apply Hpc; now left).
        split. { intros En. rewrite En in Hp1. destruct Hp1 as (_ & [Hp1|Hp1]); [now apply solid_ne in Hp1|easy]. }
        split; [apply shortened_refl|]. split; [easy|]. split; [|easy].
        cbn [app all_text map concat]. rewrite app_nil_r. apply Hp1.
    + cbn [is_nil] in E3. rewrite E3. exists mk2, s2. split; [easy|]. split; [easy|].
      split; [intros x Hx; now rewrite (S2 x Hx), (S1 x Hx)|]. cbn [app map] in Ep. rewrite El in Ep.
      split.
      * split.
        -- intros n Hn. destruct HQ1 as (_ & HQ1). specialize (HQ1 n). rewrite (proj2 (mem_In _ _) Hn) in HQ1. now rewrite <- trim_clean, <- (Hmem n Hn).
        -- intros n Hn. rewrite <- El in Hn. easy.
        -- intros a b l Hab Hall Hedge.
           destruct HQ2 as (_ & _ & Hw & Hk & Hl2 & _ & Ht2).
           ++ intros x Hx. now apply Hall.
           ++ intros a' b' Hab'. rewrite Hab in Hab'. injection Hab' as -> -> ->.
              assert (Ha : In a' (texts D0 t)) by (rewrite Hab; now left).
              assert (Hb : In b' (texts D0 t)) by (rewrite Hab; right; now left).
              rewrite (Hmem _ Ha), (Hmem _ Hb), (proj1 (Hall _ Ha)), (proj1 (Hall _ Hb)), !trim_default.
              destruct (Hedge eq_refl) as [Hs|Hs]; [left|right].
              ** apply starts_false in Hs. unfold starts in *. pose proof (collapse_hd (spaced (text_of (fst s) a'))) as Hh.
                 destruct (spaced (text_of (fst s) a')); destruct (collapse _); try easy. injection Hh as ->. exact Hs.
              ** apply ends_false in Hs. unfold ends in *. rewrite <- collapse_rev. unfold starts in *.
                 pose proof (collapse_hd (rev (spaced (text_of (fst s) b')))) as Hh.
                 destruct (rev (spaced (text_of (fst s) b'))); destruct (collapse _); try easy. injection Hh as ->. exact Hs.
           ++ intros x Hx. destruct (Hall x Hx) as (Hd & (ch & Hch & Hwh)). rewrite (Hmem x Hx), Hd. split.
              ** exists ch. split; [now apply trim_in|]. now intros ->.
              ** rewrite trim_default. apply collapse_ok2.
           ++ assert (Hpre : pre' <> []). { intros ->. rewrite Hab in Ep. easy. }
              rewrite <- (nrm_id (all_text (text_of (fst s2)) (texts D0 t))).
              ** rewrite Hw, normal_nrm. unfold nrm. do 2 f_equal.
                 unfold all_text. rewrite spaced_concat, map_map.
                 rewrite (map_ext_in (text_of (fst s1)) (fun x => collapse (spaced (text_of (fst s) x)))).
                 --- rewrite <- (map_map (fun x => spaced (text_of (fst s) x)) collapse). now rewrite collapse_concat.
                 --- intros x Hx. now rewrite (Hmem x Hx), (proj1 (Hall x Hx)), trim_default.
              ** now rewrite Ep at 1.
              ** apply starts_false. now apply Hl2.
              ** apply ends_false. now apply Ht2.
        -- intros a b l Hab Hall Hadj.
           assert (Etr : forall x, In x (texts D0 t) -> text_of (fst s1) x = collapse (spaced (text_of (fst s) x))).
           { intros x Hx. rewrite (Hmem x Hx), (proj1 (Hall x Hx)). apply trim_default. }
           assert (Hmx : mixed).
           { split; [|split].
             - intros x Hx. rewrite EX in Hx. now apply Hall.
             - intros x Hx. rewrite EX in Hx. rewrite (Etr x Hx). apply clean_piece. now apply Hall.
             - intros l1 x y l2 Hs. rewrite EX in Hs.
               assert (Hx : In x (texts D0 t)) by (rewrite Hs; apply in_app_iff; right; now left).
               assert (Hy : In y (texts D0 t)) by (rewrite Hs; apply in_app_iff; right; right; now left).
               rewrite (Etr x Hx), (Etr y Hy). destruct (Hadj _ _ _ _ Hs) as [Hk|Hk]; [left; now apply clean_solid|right; now apply clean_visible]. }
           destruct (HQm Hmx) as ((prep & EXp & Epp) & _ & _ & _ & _ & Hw & Hk & Hlead & Hend).
           destruct p1 as [a' da], p2 as [b' db]. cbn [fst snd map] in *.
           assert (Hab' : a' = a /\ b' = b /\ map fst rest = l) by (rewrite Hab in El; now injection El).
           destruct Hab' as (-> & -> & Erest).
           assert (Ha : In a (texts D0 t)) by (rewrite Hab; now left).
           assert (Hb : In b (texts D0 t)) by (rewrite Hab; right; now left).
           assert (Hpre : pre' <> []). { intros ->. rewrite Hab in Ep. easy. }
           rewrite EX in *.
           assert (Eok : all_text (text_of (fst s2)) (pre' ++ [fst p']) = all_text (text_of (fst s2)) (texts D0 t)) by now rewrite Ep.
           rewrite Eok in *. destruct (Hlead Hpre) as (_ & Hst). specialize (Hend Hpre eq_refl).
           assert (Hwn : nrm (all_text (text_of (fst s2)) (texts D0 t)) = normal (all_text (text_of (fst s)) (texts D0 t))).
           { rewrite Hw, normal_nrm. unfold nrm. do 2 f_equal. unfold all_text. rewrite spaced_concat, map_map.
             rewrite (map_ext_in (text_of (fst s1)) (fun x => collapse (spaced (text_of (fst s) x)))) by exact Etr.
             rewrite <- (map_map (fun x => spaced (text_of (fst s) x)) collapse). now rewrite collapse_concat. }
           rewrite <- Hwn, (normal_iff _ Hk), Hst.
           assert (Eda : da = 0).
           { destruct (Edep a da (or_introl eq_refl)) as (_ & Hd). symmetry. apply Hd.
             rewrite Etx in Hab. assert (Eac : a = t_node c) by congruence. rewrite Eac. exact Epar. }
           assert (Edb : Nat.ltb da db = false <-> parent_of F b = Some (t_node t)).
           { destruct (Edep b db (or_intror (or_introl eq_refl))) as (Hd0 & Hd). rewrite <- Hd, Eda, Nat.ltb_ge. lia. }
           assert (Ebad : bad_pair X (text_of (fst s1)) = true <->
             ~ inked (text_of (fst s) a) /\ lead_white (text_of (fst s) b) /\ parent_of F b = Some (t_node t)).
           { unfold bad_pair, X, bad_start. cbn [fst snd andb]. rewrite !andb_true_iff, negb_true_iff, Edb.
             rewrite (Etr a Ha), (Etr b Hb), str_eqb_eq, clean_space, clean_starts by now apply Hall. tauto. }
           rewrite <- Ebad. destruct rest as [|r rest].
           ++ unfold X in Hend. cbn [map] in Erest. subst l.
              assert (Etwo : bad_two (a, da) (b, db) (text_of (fst s1)) = true <->
                lead_white (text_of (fst s) a) /\ trail_white (text_of (fst s) b) /\
                ~ (inked (text_of (fst s) a) /\ trail_white (text_of (fst s) a) /\ ~ inked (text_of (fst s) b) /\ parent_of F b <> Some (t_node t))).
              { unfold bad_two. cbn [fst snd]. rewrite !andb_true_iff, negb_true_iff.
                rewrite (Etr a Ha), (Etr b Hb), clean_starts, clean_ends.
                assert (Ew : forall u, u = true <-> (inked (text_of (fst s) a) /\ trail_white (text_of (fst s) a) /\ ~ inked (text_of (fst s) b) /\ parent_of F b <> Some (t_node t)) ->
                  (u = false <-> ~ (inked (text_of (fst s) a) /\ trail_white (text_of (fst s) a) /\ ~ inked (text_of (fst s) b) /\ parent_of F b <> Some (t_node t)))).
                { intros [|] (U1 & U2); split; try easy; [|].
                  - intros Hn. destruct Hn. now apply U1.
                  - intros _ Hcc. now apply U2 in Hcc. }
                rewrite Ew; [tauto|]. rewrite !andb_true_iff, negb_true_iff, str_eqb_eq, clean_ends, clean_space by now apply Hall.
                rewrite <- Edb, not_false_iff_true.
                assert (Ei : str_eqb (collapse (spaced (text_of (fst s) a))) [32%N] = false <-> inked (text_of (fst s) a)).
                { rewrite <- not_true_iff_false, str_eqb_eq, clean_space by now apply Hall.
                  destruct (inked_dec (text_of (fst s) a)); tauto. }
                rewrite Ei. tauto. }
              destruct (bad_pair [(a, da); (b, db)] (text_of (fst s1))) eqn:Ebp.
              ** fold X in Ebp. rewrite Ebp. split; [easy|]. intros (Hn & _). now destruct Hn.
              ** fold X in Ebp. rewrite Ebp. rewrite (Hend eq_refl). rewrite <- (not_true_iff_false (bad_two _ _ _)), Etwo.
                 split; [intros (_ & Hn); split; [easy|]; tauto|]. intros (_ & Hn). split; [easy|]. tauto.
           ++ unfold X in Hend. rewrite Hend. rewrite <- not_true_iff_false. split; [intros (Hn & _); split; [exact Hn|]|intros (Hn & _); easy].
              intros (-> & _). easy.
        -- intros n z l Hl Hn Hpm Hink. destruct (HQ3 z) as (_ & _ & Hkeep).
           ++ now exists l.
           ++ assert (Hzin : In z (texts D0 t)) by (rewrite Hl; apply in_app_iff; right; now left).
              destruct Hink as [(ch & Hch & Hwh)|(Z1 & Z2)]; [left|right].
              ** rewrite (Hmem z Hzin). exists ch. split; [now apply trim_in_any|]. now intros ->.
              ** split; [easy|]. split; [|easy]. rewrite (Hmem z Hzin), Z1, trim_preserve. unfold spaced. now destruct (text_of (fst s) z).
           ++ now rewrite (Hkeep n Hn Hpm), (Hmem n Hn), Hpm, trim_preserve.
      * intros x Hx. destruct HQ1 as (_ & HQ1). specialize (HQ1 x). rewrite (proj2 (mem_not_In _ _) Hx) in HQ1. rewrite HQ1. now apply Hout.
Qed.

(* ---- all text elements *)
Definition effects (gs : list (xmlspace * tree)) (tx tx' : nid -> str) : Prop :=
  (forall g, In g gs -> group_effect D0 F (fst g) (snd g) tx tx') /\
  (forall x, (forall g, In g gs -> ~ In x (texts D0 (snd g))) -> tx' x = tx x).

Lemma group_effect_ext m t tx tx' ty ty' : (forall x, In x (texts D0 t) -> tx x = ty x /\ tx' x = ty' x) ->
  group_effect D0 F m t tx tx' -> group_effect D0 F m t ty ty'.
Proof.
  intros E [H1 H2 H3 H5 H4]. split.
  - intros n Hn. destruct (E n Hn) as (<- & <-). now apply H1.
  - intros n Hn. assert (Hin : In n (texts D0 t)) by (rewrite Hn; now left). destruct (E n Hin) as (<- & <-). now apply H2.
  - intros a b l Hl Ha He.
    assert (E1 : all_text ty (texts D0 t) = all_text tx (texts D0 t)) by (apply all_text_ext; intros x Hx; symmetry; now apply E).
    assert (E2 : all_text ty' (texts D0 t) = all_text tx' (texts D0 t)) by (apply all_text_ext; intros x Hx; symmetry; now apply E).
    rewrite E1, E2. apply (H3 a b l Hl).
    + intros n Hn. destruct (Ha n Hn). split; [easy|]. now rewrite (proj1 (E n Hn)).
    + intros El. rewrite (proj1 (E a ltac:(rewrite Hl; now left))), (proj1 (E b ltac:(rewrite Hl; right; now left))). now apply He.
  - intros a b l Hl Ha He.
    assert (E1 : all_text ty (texts D0 t) = all_text tx (texts D0 t)) by (apply all_text_ext; intros x Hx; symmetry; now apply E).
    assert (E2 : all_text ty' (texts D0 t) = all_text tx' (texts D0 t)) by (apply all_text_ext; intros x Hx; symmetry; now apply E).
    rewrite E1, E2. rewrite <- (proj1 (E a ltac:(rewrite Hl; now left))), <- (proj1 (E b ltac:(rewrite Hl; right; now left))).
    apply (H5 a b l Hl).
    + intros n Hn. destruct (Ha n Hn). split; [easy|]. now rewrite (proj1 (E n Hn)).
    + intros l1 x y l2 Hs. rewrite (proj1 (E x ltac:(rewrite Hs; apply in_app_iff; right; now left))).
      rewrite (proj1 (E y ltac:(rewrite Hs; apply in_app_iff; right; right; now left))). now apply (He l1 x y l2).
  - intros n z l Hl Hn Hpm Hz. destruct (E n Hn) as (<- & <-). apply (H4 n z l Hl Hn Hpm).
    now rewrite (proj1 (E z ltac:(rewrite Hl; apply in_app_iff; right; now left))).
Qed.

Lemma groups_sub m t : forall g x, In g (groups D0 m t) -> In x (preorder (snd g)) -> In x (preorder t).
Proof.
  revert m. induction t as [n ts IH] using tree_ind'. intros m g x Hg Hx. cbn [groups] in Hg.
  destruct (is_element D0 n); [|easy]. destruct (match ts with [] => false | T c _ :: _ => is_text D0 c end).
  - destruct Hg as [<-|[]]. exact Hx.
  - apply in_flat_map in Hg. destruct Hg as (c & Hc & Hg). rewrite Forall_forall in IH. cbn. right. apply in_flat_map.
    exists c. split; [easy|]. now apply (IH c Hc (mode_at D0 m n) g).
Qed.
Lemma group_texts_sub m t g x : In g (groups D0 m t) -> In x (texts D0 (snd g)) -> In x (preorder t).
Proof. intros Hg Hx. apply in_texts in Hx. now apply (groups_sub m t g). Qed.

Lemma effects_app gs1 gs2 A B tx tx1 tx2 : effects gs1 tx tx1 -> effects gs2 tx1 tx2 ->
  (forall g x, In g gs1 -> In x (texts D0 (snd g)) -> In x A) ->
  (forall g x, In g gs2 -> In x (texts D0 (snd g)) -> In x B) ->
  (forall x, In x A -> ~ In x B) -> effects (gs1 ++ gs2) tx tx2.
Proof.
  intros (H1 & H2) (H3 & H4) HA1 HB2 Hd. split.
  - intros g Hg. apply in_app_iff in Hg. destruct Hg as [Hg|Hg].
    + apply (group_effect_ext _ _ tx tx1); [|now apply H1]. intros x Hx. split; [easy|]. symmetry. apply H4.
      intros g' Hg' Hx'. apply (Hd x); [now apply (HA1 g)|now apply (HB2 g')].
    + apply (group_effect_ext _ _ tx1 tx2); [|now apply H3]. intros x Hx. split; [|easy]. apply H2.
      intros g' Hg' Hx'. apply (Hd x); [now apply (HA1 g')|now apply (HB2 g)].
  - intros x Hx. rewrite H4, H2; [easy| |]; intros g Hg; apply Hx, in_app_iff; tauto.
Qed.

Lemma mode_idem m n : mode_at D0 (mode_at D0 m n) n = mode_at D0 m n.
Proof. unfold mode_at. now destruct (own_space D0 n). Qed.

Definition below (ts : list tree) : list nid := flat_map preorder ts.

Lemma prepare_rec_ok t : forall fuel m mk s, tree_at F t -> incl (preorder t) (preorder t0) ->
  length (preorder t) < fuel -> TInv mk s -> (forall x, In x (below (t_kids t)) -> mk x = None) ->
  exists mk' s', prepare_rec fuel (t_node t) m s = Ok s' /\ TInv mk' s' /\
    (forall x, ~ In x (below (t_kids t)) -> mk' x = mk x) /\
    effects (flat_map (groups D0 m) (t_kids t)) (text_of (fst s)) (text_of (fst s')).
Proof.
  induction t as [n ts IH] using tree_ind'. intros fuel m mk s Ht Hincl Hf H Hmk.
  destruct fuel as [|fuel]; [lia|]. cbn [t_node t_kids] in *. cbn [prepare_rec].
  inversion Ht as [? ? E Hall]; subst. rewrite Forall_forall in Hall, IH.
  pose proof (preorder_nodup F (T n ts) W Ht) as Hnd. cbn [preorder] in Hnd. inversion Hnd as [|? ? Hn Hnd']; subst.
  set (P := fun (pre : list nid) (s' : tstate) => exists done rest mk', ts = done ++ rest /\ pre = map t_node done /\
    TInv mk' s' /\ (forall x, ~ In x (below done) -> mk' x = mk x) /\
    effects (flat_map (groups D0 m) done) (text_of (fst s)) (text_of (fst s'))).
  replace (children (t_links s) n) with (children (lk D0) n) by (unfold t_links; now rewrite (ti_lk mk s H)).
  match goal with |- exists mk' s', for_children _ _ ?b _ _ = _ /\ _ => set (body := b) end.
  destruct (children_loop t_links body (lk D0) F n P (iv_rep D0 F HI)) with (fuel := fuel) (s := s) as (s' & Es & done & rest & mk' & Ets & Epre & Hres).
  - intros pre s1 (done & rest & mk1 & _ & _ & H1 & _). unfold t_links. apply (ti_lk mk1 s1 H1).
  - intros pre c' post s1 Epost (done & rest & mk1 & Ets & Epre & H1 & Hmk1 & Hef).
    assert (Hc : exists c r, rest = c :: r /\ t_node c = c').
    { rewrite E, Ets, map_app, Epre in Epost. apply app_inv_head in Epost. destruct rest as [|c r]; [easy|].
      injection Epost as Ec _. now exists c, r. }
    destruct Hc as (c & r & -> & Ec). rewrite <- Ec. clear Epost.
    assert (Hcin : In c ts) by (rewrite Ets; apply in_app_iff; right; now left).
    assert (Hpc : incl (preorder c) (preorder t0)).
    { intros x Hx. apply Hincl. right. apply in_flat_map. now exists c. }
    assert (Hdis : forall x, In x (preorder c) -> ~ In x (below done)).
    { intros x Hx Hd. rewrite Ets, flat_map_app in Hnd'. cbn [flat_map] in Hnd'. clear - Hnd' Hx Hd.
      unfold below in Hd. induction (flat_map preorder done) as [|y l IHl]; [easy|]. cbn in Hnd'. inversion Hnd'; subst.
      destruct Hd as [->|Hd]; [|auto]. apply H1. apply in_app_iff. right. apply in_app_iff. now left. }
    assert (Hmkc : forall x, In x (preorder c) -> mk1 x = None).
    { intros x Hx. rewrite Hmk1 by now apply Hdis. apply Hmk. apply in_flat_map. now exists c. }
    assert (Hpre' : map t_node done ++ [t_node c] = map t_node (done ++ [c])) by now rewrite map_app.
    assert (Hbel : below (done ++ [c]) = below done ++ preorder c).
    { unfold below. rewrite flat_map_app. cbn. now rewrite app_nil_r. }
    (* it is enough to treat the child *)
    enough (Hone : exists s2 mk2, body (t_node c) s1 = Ok s2 /\ TInv mk2 s2 /\
       (forall x, ~ In x (preorder c) -> mk2 x = mk1 x) /\ effects (groups D0 m c) (text_of (fst s1)) (text_of (fst s2))).
    { destruct Hone as (s2 & mk2 & Eb & H2 & Hmk2 & Hef2). exists s2. split; [exact Eb|].
      exists (done ++ [c]), r, mk2. split; [now rewrite <- app_assoc|]. split; [now rewrite Epre, <- Hpre'|]. split; [exact H2|]. split.
      - intros x. rewrite Hbel, in_app_iff. intros Hx. rewrite Hmk2, Hmk1 by tauto. easy.
      - rewrite flat_map_app. cbn [flat_map]. rewrite app_nil_r.
        apply (effects_app _ _ (below done) (preorder c) _ (text_of (fst s1))); try easy.
        + intros g x Hg Hx. apply in_flat_map in Hg. destruct Hg as (d & Hd & Hg). apply in_flat_map. exists d. split; [easy|].
          now apply (group_texts_sub m d g).
        + intros g x. apply group_texts_sub.
        + intros x Hx Hc. now apply (Hdis x). }
    subst body. cbv beta. rewrite (ti_is_element mk1 s1 (t_node c) H1).
    destruct (is_element D0 (t_node c)) eqn:Ee.
    2:{ exists s1, mk1. split; [easy|]. split; [easy|]. split; [easy|]. destruct c as [k us]. cbn [groups t_node] in *. rewrite Ee. split; easy. }
    destruct (get_space mk1 s1 (t_node c) m H1 Ee) as (mk2 & s2 & Eg & H2 & Hmk2 & _ & Htx2); [apply Hpc, preorder_self|].
    rewrite Eg. cbn [bind fst snd].
    assert (Em : eff mk1 m (t_node c) = mode_at D0 m (t_node c)).
    { unfold eff, mode_at. rewrite (Hmkc _ (preorder_self c)). now destruct (own_space D0 (t_node c)). }
    rewrite Em in *.
    assert (Hat : tree_at F c) by now apply Hall.
    assert (Hinner : inner c) by (split; [easy|split; easy]).
    assert (Hother : forall x, x <> t_node c -> mk2 x = mk1 x) by (intros x Hx; destruct (Hmk2 x) as [|(? & _)]; easy).
    assert (Hkid : forall x, In x (below (t_kids c)) -> x <> t_node c /\ In x (preorder c)).
    { intros x Hx. assert (Hp : preorder c = t_node c :: below (t_kids c)) by now destruct c. split.
      - intros ->. pose proof (preorder_nodup F c W Hat) as Hndc. rewrite Hp in Hndc. now inversion Hndc.
      - rewrite Hp. now right. }
    assert (Hfirst : first_child (t_links s2) (t_node c) = hd_error (map t_node (t_kids c))).
    { unfold first_child, t_links. rewrite (ti_lk mk2 s2 H2), (r_first _ _ (iv_rep D0 F HI)). now rewrite (tree_at_children F c Hat). }
    rewrite Hfirst.
    assert (Hgo : exists s3 mk3, prepare_rec fuel (t_node c) (mode_at D0 m (t_node c)) s2 = Ok s3 /\ TInv mk3 s3 /\
       (forall x, ~ In x (preorder c) -> mk3 x = mk1 x) /\
       effects (flat_map (groups D0 (mode_at D0 m (t_node c))) (t_kids c)) (text_of (fst s1)) (text_of (fst s3))).
    { destruct (IH c Hcin fuel (mode_at D0 m (t_node c)) mk2 s2 Hat Hpc) as (mk3 & s3 & E3 & H3 & Hmk3 & Hef3); try easy.
      - pose proof (kid_size (T n ts) c Hcin). lia.
      - intros x Hx. destruct (Hkid x Hx) as (Hx1 & Hx2). rewrite Hother by easy. now apply Hmkc.
      - exists s3, mk3. split; [easy|]. split; [easy|]. split.
        + intros x Hx. rewrite Hmk3.
          * apply Hother. intros ->. apply Hx, preorder_self.
          * intros Hb. now apply Hx, Hkid.
        + apply (effects_app [] _ [] (preorder c) _ (text_of (fst s2))); [|exact Hef3|easy| |easy].
          * split; [easy|]. intros x _. now rewrite Htx2.
          * intros g x Hg Hx. apply in_flat_map in Hg. destruct Hg as (d & Hd & Hg). apply Hkid, in_flat_map. exists d. split; [easy|].
            exact (group_texts_sub _ d g x Hg Hx). }
    destruct c as [k us]. cbn [t_node t_kids] in *. cbn [groups]. rewrite Ee.
    destruct us as [|d us]; cbn [map hd_error].
    { destruct Hgo as (s3 & mk3 & Hgo). exists s3, mk3. exact Hgo. }
    rewrite (ti_is_text mk2 s2 (t_node d) H2). destruct d as [dn ds]. cbn [t_node] in *.
    destruct (is_text D0 dn) eqn:Ex.
    + destruct (group_ok (mode_at D0 m k) (T k (T dn ds :: us)) (T dn ds) us mk2 s2 Hinner eq_refl Ex (mode_idem m k))
        as (mk3 & s3 & E3 & H3 & Hmk3 & Hef3 & Hout3).
      { intros x Hx. destruct (Hmk2 x) as [Hx2|(_ & ->)]; [|now right]. left. rewrite Hx2. now apply Hmkc. }
      { exact H2. }
      exists s3, mk3. split; [exact E3|]. split; [easy|]. split.
      * intros x Hx. rewrite Hmk3 by easy. apply Hother. intros ->. apply Hx. now left.
      * split.
        -- intros g [<-|[]]. cbn [fst snd]. apply (group_effect_ext _ _ (text_of (fst s2)) (text_of (fst s3))); [|easy].
           intros x _. now rewrite Htx2.
        -- intros x Hx. rewrite Hout3; [apply Htx2|]. exact (Hx _ (or_introl eq_refl)).
    + destruct Hgo as (s3 & mk3 & Hgo). exists s3, mk3. exact Hgo.
  - pose proof (kids_length (T n ts)). cbn [t_kids preorder] in *. rewrite E, map_length. lia.
  - exists [], ts, mk. split; [easy|]. split; [easy|]. split; [easy|]. split; [easy|]. now split.
  - exists mk', s'. split; [exact Es|].
    assert (rest = []).
    { rewrite E, Ets, map_app in Epre. destruct rest as [|c r]; [easy|]. exfalso.
      apply (f_equal (@length nid)) in Epre. rewrite app_length, !map_length in Epre. cbn in Epre. lia. }
    subst rest. rewrite app_nil_r in Ets. subst done. exact Hres.
Qed.

(* ---- removing the temporary attributes *)
Record Cleaned (D : dom) : Prop := {
  cl_inv : InvF D F;
  cl_lk : lk D = lk D0;
  cl_fresh : fresh D = fresh D0;
  cl_root : droot D = droot D0;
  cl_store : store D = store D0;
  cl_key : forall n, storage_key D n = storage_key D0 n;
  cl_type : forall n, node_type D n = node_type D0 n;
  cl_tag : forall n, tag_name D n = tag_name D0 n;
  cl_id : forall n, id_of D n = id_of D0 n;
  cl_linked : forall n, linked_nodes D n = linked_nodes D0 n;
  cl_text : forall n, is_text D0 n = false -> text_of D n = text_of D0 n;
  cl_attrs : forall x, attributes D x = attributes D0 x;
  cl_calls : calls tidy_call D0 D
}.

Lemma named_space mk s x : TInv mk s -> named_target (attributes (fst s) x) (QId A_Space) = None.
Proof.
  intros H. unfold named_target. rewrite (ti_attrs mk s H), get_value_app.
  destruct (attrs_get_value (attributes D0 x) (QId A_Space)) as [v|] eqn:E.
  - apply (tx_space D0 F HT) in E. now destruct E as (u & ->).
  - now destruct (mk x).
Qed.

Lemma remove_marks_ok l : forall mk s, TInv mk s -> snd s = l ->
  exists D', remove_marks l (fst s) = Ok D' /\ Cleaned D' /\ (forall x, text_of D' x = text_of (fst s) x).
Proof.
  induction l as [|n l IH]; intros mk s H El.
  - exists (fst s). split; [easy|]. split; [|easy].
    assert (Hno : forall x, mk x = None).
    { intros x. destruct (mk x) as [m|] eqn:E; [|easy]. pose proof (proj2 (ti_list mk s H x)) as Hx. rewrite El, E in Hx. now destruct Hx. }
    destruct H. split; try assumption. intros x. now rewrite ti_attrs0, Hno, app_nil_r.
  - cbn [remove_marks].
    assert (Hn : mk n <> None) by (apply (ti_list mk s H); rewrite El; now left).
    destruct (remove_attribute_spec n (QId A_Space) (fst s) (iv_link _ _ (ti_inv mk s H))) as (D1 & E1 & Hf & Ha & Hl & HL).
    rewrite E1. cbn [bind]. rewrite (named_space mk s n H) in Hl.
    destruct (IH (fun x => if Nat.eqb x n then None else mk x) (D1, l)) as (D' & E' & C' & X').
    + destruct (remove_attribute_inv (fst s) F n (QId A_Space) (ti_inv mk s H)) as (D1' & E1' & I1 & _).
      rewrite E1 in E1'. injection E1' as <-.
      pose proof (ti_mark mk s H n Hn) as (Hown & Hel & Hin0).
      destruct H. destruct Hf. cbn [fst snd] in *. split; cbn [fst snd]; try congruence.
      * intros x Hx. rewrite fr_text. now apply ti_text0.
      * intros x. rewrite Ha, ti_attrs0. destruct (Nat.eqb_spec x n) as [->|]; [|easy].
        unfold drop_name. rewrite filter_app. fold (drop_name (QId A_Space) (attributes D0 n)). rewrite drop_name_none.
        -- destruct (mk n); reflexivity.
        -- apply get_value_none. now apply no_own.
      * intros x. destruct (Nat.eqb_spec x n) as [->|]; [easy|]. apply ti_mark0.
      * rewrite El in ti_nodup0. now inversion ti_nodup0.
      * intros x. specialize (ti_list0 x). rewrite El in *. cbn in ti_list0. inversion ti_nodup0; subst.
        destruct (Nat.eqb_spec x n) as [->|]; [tauto|]. rewrite <- ti_list0. split; [tauto|]. intros [<-|]; easy.
      * eapply calls_trans; [exact ti_calls0|].
        eapply (calls_step _ (fst s) (ORemoveAttribute n (QId A_Space))); [apply calls_nil| | | | |exact E1]; try easy.
        -- split; [|exact Logic.I]. intros x [<-|[]]. unfold exists_node. rewrite ti_fresh0. now apply t0_lt.
        -- intros Hs. split; [|easy]. intros x [<-|[]]. rewrite ti_key0. now apply Hs.
    + easy.
    + cbn [fst] in E', X'. exists D'. split; [easy|]. split; [easy|]. intros x. rewrite X'. apply (fr_text _ _ Hf).
Qed.

(* ---- the result *)
Lemma empty_stable D : stable empty_text D.
Proof.
  intros S D' R x _. unfold empty_text, is_text. now rewrite (rv_type _ _ _ R), (rv_text _ _ _ R).
Qed.

Record prepared (D' : dom) (F' : forest) : Prop := {
  pr_inv : InvF D' F';
  pr_acyclic : acyclic F';
  pr_fresh : fresh D' = fresh D0;
  pr_root : droot D' = droot D0;
  pr_type : forall n, node_type D' n = node_type D0 n;
  pr_tag : forall n, tag_name D' n = tag_name D0 n;
  pr_id : forall n, id_of D' n = id_of D0 n;
  pr_attrs : forall n, attributes D' n = attributes D0 n;
  pr_text : forall n, is_text D0 n = false -> text_of D' n = text_of D0 n;
  pr_effects : effects (flat_map (groups D0 Default) (t_kids t0)) (text_of D0) (text_of D');
  pr_tree : tree_at F' (drained (fun n => is_text D0 n && is_empty (text_of D' n)) t0);
  pr_calls : calls tidy_call D0 D'
}.

Lemma drained_ext p q t : (forall x, p x = q x) -> drained p t = drained q t.
Proof.
  intros E. induction t as [n ts IH] using tree_ind'. cbn [drained]. f_equal.
  induction IH as [|c ts Hc IH IH2]; [easy|]. cbn [flat_map]. now rewrite E, Hc, IH2.
Qed.

Lemma maximal_texts p t x : (forall n, p n = true -> is_text D0 n = true) -> tree_at F t -> t_node t <> droot D0 ->
  In x (flat_map preorder (maximal p t)) -> is_text D0 x = true.
Proof.
  intros Hp. induction t as [n ts IH] using tree_ind'. intros Ht Hr Hx. cbn [maximal] in Hx.
  destruct (p n) eqn:E.
  - cbn [flat_map] in Hx. rewrite app_nil_r in Hx. apply Hp in E.
    pose proof (no_kids (T n ts) n Ht eq_refl (text_not_element n E) Hr) as Hk. cbn in Hk. subst ts.
    cbn in Hx. destruct Hx as [<-|[]]. exact E.
  - inversion Ht as [? ? Ec Hall]; subst. rewrite Forall_forall in IH, Hall.
    apply in_flat_map in Hx. destruct Hx as (u & Hu & Hx). apply in_flat_map in Hu. destruct Hu as (c & Hc & Hu).
    apply (IH c Hc (Hall c Hc)).
    + intros Er. assert (parent_of F (t_node c) = Some n) as Hpar by (apply (wf_child F W); rewrite Ec; now apply in_map).
      rewrite Er, (tx_top D0 F HT) in Hpar. easy.
    + apply in_flat_map. now exists u.
Qed.

Theorem prepare_text_ok : aimed D0 -> exists D' F', prepare_text D0 = Ok D' /\ prepared D' F'.
Proof.
  intros HAim. unfold prepare_text.
  assert (Hlt : t_node t0 < fresh D0) by (rewrite Hr0; apply (iv_rlt D0 F HI)).
  destruct (prepare_rec_ok t0 (enough D0) Default (fun _ => None) (D0, []) Ht0 (incl_refl _)) as (mk & s & E1 & H1 & _ & Hef).
  { pose proof (tree_size D0 F t0 HI Ht0 Hlt). unfold enough. lia. }
  { exact ti_start. }
  { easy. }
  rewrite <- Hr0, E1. cbn [bind]. cbn [fst] in Hef.
  destruct (remove_marks_ok (snd s) mk s H1 eq_refl) as (D1 & E2 & C & X). rewrite E2. cbn [bind].
  rewrite (cl_root D1 C), <- Hr0.
  assert (Hlt1 : t_node t0 < fresh D1) by now rewrite (cl_fresh D1 C).
  destruct (drain_spec D1 F t0 empty_text (cl_inv D1 C) Ht0 Hlt1 (empty_stable D1)) as (D2 & E3 & I2 & R2 & T2).
  pose proof (fun S => PruneFacts.acyclic_prune S F HA) as A2.
  rewrite E3. cbn [bind fst].
  set (S := flat_map preorder (flat_map (maximal (empty_text D1)) (t_kids t0))) in *.
  assert (HS : forall x, In x S -> is_text D0 x = true).
  { intros x Hx. unfold S in Hx. apply in_flat_map in Hx. destruct Hx as (u & Hu & Hx). apply in_flat_map in Hu. destruct Hu as (c & Hc & Hu).
    apply (maximal_texts (empty_text D1) c).
    - intros n Hn. unfold empty_text in Hn. apply andb_true_iff in Hn. destruct Hn as (Hn & _). unfold is_text in *. now rewrite (cl_type D1 C) in Hn.
    - destruct Ht0 as [n ts Ek Hall]. cbn in Hc. rewrite Forall_forall in Hall. now apply Hall.
    - intros Er. assert (Hpar : parent_of F (t_node c) = Some (t_node t0)).
      { apply (wf_child F W). rewrite (tree_at_children F t0 Ht0). now apply in_map. }
      rewrite Er, (tx_top D0 F HT) in Hpar. easy.
    - apply in_flat_map. now exists u. }
  exists D2, (f_prune S F). split; [easy|].
  assert (Hattr : forall n, attributes D2 n = attributes D0 n).
  { intros n. rewrite (rv_attrs _ _ _ R2), (cl_attrs D1 C).
    assert (G : forall l, incl l (attributes D0 n) -> filter (fun a => negb (cut S n a)) l = l).
    { induction l as [|a l IHl]; intros Hl; [easy|]. cbn [filter]. rewrite (IHl (fun x Hx => Hl x (or_intror Hx))).
      assert (Ha : In a (attributes D0 n)) by (apply Hl; now left).
      replace (cut S n a) with false; [easy|]. symmetry. unfold cut. apply andb_false_iff. right. apply orb_false_iff. split.
      - apply mem_not_In. intros Hx. apply HS, text_not_element in Hx. destruct (iv_plain D0 F HI n Hx) as (E & _). now rewrite E in Ha.
      - destruct (link_target (a_value a)) as [u|] eqn:Eu; [|easy]. apply mem_not_In. intros Hx. apply HS, text_not_element in Hx.
        rewrite (HAim n a u Ha Eu) in Hx. easy. }
    apply G, incl_refl. }
  assert (Htx : forall n, text_of D2 n = text_of (fst s) n) by (intros n; now rewrite (rv_text _ _ _ R2), X).
  split; try easy.
  - rewrite (rv_fresh _ _ _ R2). apply C.
  - rewrite (rv_root _ _ _ R2). apply C.
  - intros n. rewrite (rv_type _ _ _ R2). apply C.
  - intros n. rewrite (rv_tag _ _ _ R2). apply C.
  - intros n. rewrite (rv_id _ _ _ R2). apply C.
  - intros n Hn. rewrite (rv_text _ _ _ R2). now apply C.
  - destruct Hef as (Hef1 & Hef2). split.
    + intros g Hg. apply (group_effect_ext _ _ (text_of D0) (text_of (fst s))); [|now apply Hef1]. intros x _. now rewrite Htx.
    + intros x Hx. rewrite Htx. now apply Hef2.
  - rewrite (drained_ext _ (empty_text D1)); [exact T2|]. intros x. unfold empty_text. rewrite (rv_text _ _ _ R2).
    unfold is_text. now rewrite (cl_type D1 C).
  - eapply calls_trans; [apply (cl_calls D1 C)|].
    eapply (calls_step _ D1 (ODrain (t_node t0) empty_text)); [apply calls_nil| | | | |]; try easy.
    + split; [|exact Logic.I]. intros x [<-|[]]. exact Hlt1.
    + intros Hs. split; [|easy]. intros x [<-|[]]. rewrite (cl_key D1 C). apply Hs, preorder_self.
    + cbn [step]. now rewrite E3.
Qed.
End TextProofs.
