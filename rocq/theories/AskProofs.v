(* The questions about a node agree. *)
From Coq Require Import List Bool PeanoNat NArith Lia.
From Verif Require Import Base Ids Links Tree ForestSpec TreeSpec TreeProofs TreeApi Data Attrs Slab NodeApi Doc AttrFacts LinkProofs AttrSpec History
  InvProofs HistoryProofs ApiProofs Values AskSpec.
Import ListNotations.

Lemma one_type D n : only_one [is_root D n; is_element D n; is_comment D n; is_text D n].
Proof.
  unfold is_root, is_element, is_comment, is_text. destruct (node_type D n); cbn [ntype_eqb].
  - exists [], [false; false; false]. split; [reflexivity|]. cbn. intuition.
  - exists [false], [false; false]. split; [reflexivity|]. cbn. intuition.
  - exists [false; false], [false]. split; [reflexivity|]. cbn. intuition.
  - exists [false; false; false], []. split; [reflexivity|]. cbn. intuition.
Qed.
Lemma type_answers D n :
  (is_root D n = true <-> node_type D n = NRoot) /\ (is_element D n = true <-> node_type D n = NElement) /\
  (is_comment D n = true <-> node_type D n = NComment) /\ (is_text D n = true <-> node_type D n = NText).
Proof. unfold is_root, is_element, is_comment, is_text. destruct (node_type D n); cbn; repeat split; easy. Qed.
Lemma root_answer D n : reachable D -> exists_node D n -> is_root D n = true <-> n = droot D.
Proof.
  intros R Hn. destruct (reachable_inv D R) as (F & I & _). rewrite (proj1 (type_answers D n)). exact (iv_root D F I n Hn).
Qed.
Lemma tag_answers D n : reachable D ->
  (forall t, has_tag_name D n t = true <-> tag_name D n = t) /\
  (forall e, tag_id D n = Some e <-> tag_name D n = QId e) /\
  (is_svg_element D n = true <-> exists e, tag_id D n = Some e) /\
  (is_element D n = true <-> tag_name D n <> QName []).
Proof.
  intros R. destruct (reachable_inv D R) as (F & I & _). split; [|split; [|split]].
  - intros t. unfold has_tag_name. apply tag_eqb_eq.
  - intros e. unfold tag_id. destruct (tag_name D n); split; congruence.
  - unfold is_svg_element, tag_id. destruct (is_element D n) eqn:E.
    + destruct (tag_name D n); split; eauto; try easy. intros (e & H). discriminate.
    + destruct (iv_plain D F I n E) as (_ & -> & _). split; [easy|]. intros (e & H). discriminate.
  - destruct (is_element D n) eqn:E; split; intros H; [|easy|easy|].
    + pose proof (iv_tag D F I n E) as Ht. destruct (tag_name D n) as [|[|]]; cbn in Ht; congruence.
    + destruct (iv_plain D F I n E) as (_ & Et & _). congruence.
Qed.
Lemma id_answer D n : has_id D n = true <-> id_of D n <> [].
Proof. unfold has_id. now destruct (id_of D n). Qed.
Lemma plain_answers D n : reachable D -> is_element D n = false ->
  tag_id D n = None /\ has_id D n = false /\ attributes D n = [] /\ (forall a, uses D n a = 0).
Proof.
  intros R E. destruct (reachable_inv D R) as (F & I & _). destruct (iv_plain D F I n E) as (Ha & Et & Ei).
  unfold tag_id, has_id, uses. rewrite Ha, Et, Ei. repeat split.
Qed.
Lemma parent_answer D F n : reachable D -> shows (lk D) F -> exists_node D n ->
  (has_parent D n = true <-> exists p, parent_of F n = Some p /\ p <> droot D).
Proof.
  intros R S Hn. destruct (reachable_inv D R) as (F' & I & _). unfold has_parent, parent.
  assert (Hp : l_parent (lk D) n = parent_of F n) by (apply shows_Rep in S; apply (r_parent _ _ S)).
  assert (Hp' : l_parent (lk D) n = parent_of F' n) by apply (r_parent _ _ (iv_rep D F' I)).
  rewrite Hp. destruct (parent_of F n) as [p|] eqn:E.
  - assert (He : exists_node D p).
    { unfold exists_node. destruct (Nat.lt_ge_cases p (fresh D)) as [|Hge]; [easy|]. exfalso.
      destruct (iv_iso D F' I p Hge) as (_ & _ & Hc). rewrite Hp in Hp'. symmetry in Hp'.
      pose proof (wf_parent F' (r_wf _ _ (iv_rep D F' I)) n p Hp') as Hs. pose proof (wf_self F' (r_wf _ _ (iv_rep D F' I)) n) as Hin.
      rewrite Hs, Hc in Hin. easy. }
    pose proof (root_answer D p R He) as Hr. destruct (is_root D p); cbn [negb].
    + split; [easy|]. intros (q & [= <-] & Hq). exfalso. apply Hq. now apply Hr.
    + split; [|easy]. intros _. exists p. split; [reflexivity|]. intros H. apply Hr in H. discriminate.
  - split; [easy|]. now intros (p & H & _).
Qed.
Lemma attr_answers D n : reachable D ->
  (forall name, has_attribute D n name = true <-> In name (names_of (attributes D n))) /\
  (forall name, attrs_get (attributes D n) name = None <-> has_attribute D n name = false) /\
  (forall name a, attrs_get (attributes D n) name = Some a <-> In a (attributes D n) /\ a_name a = name) /\
  (forall name v, attrs_get_value (attributes D n) name = Some v <-> In (mkAttr name v) (attributes D n)) /\
  (attrs_is_empty (attributes D n) = true <-> forall name, has_attribute D n name = false) /\
  (attrs_is_empty (attributes D n) = true <-> attrs_len (attributes D n) = 0) /\
  (forall l, NoDup l -> (forall name, In name l <-> has_attribute D n name = true) -> attrs_len (attributes D n) = length l).
Proof.
  intros R. pose proof (li_uniq D (reach_linv D R) n) as Hn. unfold has_attribute, names_of.
  assert (Hv : forall name, attrs_get_value (attributes D n) name = option_map a_value (attrs_get (attributes D n) name))
    by (intros name; apply get_value_get).
  assert (Hg : forall name a, attrs_get (attributes D n) name = Some a -> In a (attributes D n) /\ a_name a = name).
  { intros name a. clear Hn Hv. induction (attributes D n) as [|b l IH]; cbn [attrs_get]; [easy|].
    destruct (aname_eqb_spec (a_name b) name) as [E|_]; [intros [= <-]; split; [now left|exact E]|].
    intros H. destruct (IH H) as (H1 & H2). split; [now right|exact H2]. }
  split; [intros name; apply contains_iff|]. split; [|split; [|split; [|split; [|split]]]].
  - intros name. rewrite contains_false, <- get_value_none, Hv. destruct (attrs_get _ name); cbn; split; congruence.
  - intros name a. split; [apply Hg|]. intros (Ha & <-). destruct (attrs_get (attributes D n) (a_name a)) as [b|] eqn:E.
    + destruct (Hg _ _ E) as (Hb & Eb). f_equal. apply (unique_attr (attributes D n)); auto.
    + exfalso. pose proof (Hv (a_name a)) as H. rewrite E in H. cbn in H. apply get_value_none in H. apply H. now apply in_map.
  - intros name v. now apply get_value_spec.
  - destruct (attributes D n) as [|a l] eqn:E; cbn [attrs_is_empty]; split; try easy.
    intros H. specialize (H (a_name a)). apply contains_false in H. exfalso. apply H. now left.
  - destruct (attributes D n); cbn; split; congruence.
  - intros l Hl Hin. unfold attrs_len. rewrite <- (map_length a_name).
    apply Nat.le_antisymm; apply NoDup_incl_length; auto; intros x Hx.
    + apply Hin, contains_iff. exact Hx.
    + apply contains_iff, Hin. exact Hx.
Qed.
Lemma svg_nodes_answer D l : reachable D ->
  map snd (filter_svg D l) = filter (is_svg_element D) l /\ forall e n, In (e, n) (filter_svg D l) -> tag_id D n = Some e.
Proof.
  intros R. induction l as [|n l (IH1 & IH2)]; [easy|]. cbn [filter_svg filter].
  pose proof (tag_answers D n R) as (_ & _ & Hs & _). unfold tag_id in *.
  destruct (tag_name D n) as [e|s] eqn:E.
  - rewrite (proj2 Hs (ex_intro _ e eq_refl)). cbn [map snd]. split; [now rewrite IH1|].
    intros e' n' [[= <- <-]|H]; [now rewrite E|now apply IH2].
  - replace (is_svg_element D n) with false; [now split|]. destruct (is_svg_element D n); [|reflexivity].
    destruct (proj1 Hs eq_refl) as (e & H). discriminate.
Qed.
Lemma svg_attrs_answer l : map snd (attrs_svg l) = filter attribute_is_svg l /\ forall i a, In (i, a) (attrs_svg l) -> a_name a = QId i.
Proof.
  induction l as [|a l (IH1 & IH2)]; [easy|]. cbn [attrs_svg filter]. unfold attribute_is_svg. destruct (a_name a) as [i|s] eqn:E.
  - cbn [map snd]. split; [now rewrite IH1|]. intros j b [[= <- <-]|H]; [exact E|now apply IH2].
  - split; [exact IH1|exact IH2].
Qed.
