(* root(): exactly which insertions keep it right. *)
From Coq Require Import List Bool PeanoNat NArith Lia.
From Verif Require Import Base Ids Links Tree Iter ForestSpec ListFacts TreeProofs ForestFacts IterSpec IterProofs
  PruneFacts Data Attrs Slab SlabProofs NodeApi Doc AttrFacts LinkProofs DocSpec RemoveProofs History InvProofs
  HistoryProofs DrainProofs TidyProofs TreeSpec RootProofs RootSpec.
Import ListNotations.

Lemma top_above L t x : parent L t = None -> top_of L x t <-> above L t x.
Proof.
  intros Ht. split.
  - induction 1 as [n Hn|n p t Hp H IH]; [constructor|]. apply (above_up L t n p); auto.
  - induction 1 as [n|a n p Hp H IH]; [now constructor|]. apply (top_up L n p); auto.
Qed.
Lemma top_parent L t x : top_of L x t -> parent L t = None.
Proof. induction 1; auto. Qed.
Lemma above_trans L a b c : above L a b -> above L b c -> above L a c.
Proof. intros H1 H2. induction H2 as [n|b n p Hp H IH]; [easy|]. apply (above_up L a n p); auto. Qed.
Lemma above_mono L L' a x : (forall m p, parent L' m = Some p -> parent L m = Some p) -> above L' a x -> above L a x.
Proof. intros Hp. induction 1 as [n|a n p Ep H IH]; [constructor|]. apply (above_up L a n p); auto. Qed.

Lemma right_shrink t D D' : root_right t D -> (forall n, l_root (lk D') n = l_root (lk D) n) ->
  (forall n p, parent (lk D') n = Some p -> parent (lk D) n = Some p) -> root_right t D'.
Proof.
  intros (H1 & H2) Hl Hp. assert (H1' : parent (lk D') t = None).
  { destruct (parent (lk D') t) as [p|] eqn:E; [|easy]. apply Hp in E. congruence. }
  split; [easy|]. intros x Hx. apply (top_above _ _ _ H1') in Hx. apply (above_mono (lk D)) in Hx; [|easy].
  unfold root_of. rewrite Hl. apply H2. now apply top_above.
Qed.
Lemma right_same t D D' : root_right t D -> lk D' = lk D -> root_right t D'.
Proof. intros H El. apply (right_shrink t D D' H); now rewrite El. Qed.

(* an insertion of [n] below [q], seen through parent() and the cached roots *)
Section Insert.
  Context (L L' : links) (t n : nid) (q : option nid).
  Context (Ht : parent L t = None) (Hnt : n <> t)
    (Hq : forall p, q = Some p -> ~ above L n p)
    (Hp : forall m, parent L' m = if Nat.eqb m n then q else parent L m)
    (Hl : forall m, m <> n -> l_root L' m = l_root L m)
    (Hn : forall p, q = Some p -> top_of L p t -> root_of L p = t -> root_of L' n = t).

  Lemma ins_parent : parent L' t = None.
  Proof. rewrite Hp. now destruct (Nat.eqb_spec t n) as [E|]; [congruence|]. Qed.

  Lemma ins_split m : above L' t m -> (above L t m /\ ~ above L n m) \/ (above L n m /\ exists p, q = Some p /\ above L t p).
  Proof.
    intros H. remember t as t' eqn:Et in H. induction H as [x|a x p Ep H IH]; subst.
    - left. split; [constructor|]. intros Ha. inversion Ha; congruence.
    - specialize (IH eq_refl). rewrite Hp in Ep. destruct (Nat.eqb_spec x n) as [->|Hx].
      + right. split; [constructor|]. exists p. split; [easy|]. destruct IH as [(IH & _)|(IH & _)]; [easy|].
        now apply Hq in Ep.
      + destruct IH as [(I1 & I2)|(I1 & p' & I2)].
        * left. split; [now apply (above_up _ _ x p)|]. intros Ha. inversion Ha; subst; [easy|].
          congruence.
        * right. split; [now apply (above_up _ _ x p)|eauto].
  Qed.

  Lemma ins_keep a m : above L a m -> ~ above L n m -> above L' a m.
  Proof.
    induction 1 as [x|a x p Ep H IH]; intros Ha; [constructor|]. apply (above_up _ _ x p).
    - rewrite Hp. destruct (Nat.eqb_spec x n) as [->|]; [|easy]. exfalso. apply Ha. constructor.
    - apply IH. intros Hb. apply Ha. now apply (above_up _ _ x p).
  Qed.
  Lemma ins_down x : above L n x -> above L' n x.
  Proof.
    intros H. remember n as n' eqn:En in H. induction H as [x|a x p Ep H IH]; subst; [constructor|].
    destruct (Nat.eq_dec x n) as [->|Hx]; [constructor|]. apply (above_up _ _ x p); [|auto].
    rewrite Hp. destruct (Nat.eqb_spec x n); easy.
  Qed.

  Lemma ins_right : (forall x, top_of L x t -> root_of L x = t) ->
    ((forall x, top_of L' x t -> root_of L' x = t) <->
     (forall p x, q = Some p -> top_of L p t -> above L n x -> x <> n -> root_of L x = t)).
  Proof.
    intros Hr. split.
    - intros Hr' p x Ep Hpt Hx Hxn. specialize (Hr' x). unfold root_of in *. rewrite (Hl x Hxn) in Hr'. apply Hr'.
      apply (top_above _ _ _ ins_parent). apply (above_trans _ t n x); [|now apply ins_down].
      apply (above_up _ _ n p); [rewrite Hp; now rewrite Nat.eqb_refl|].
      apply (top_above _ _ _ Ht) in Hpt. apply ins_keep; auto.
    - intros Hs x Hx. apply (top_above _ _ _ ins_parent) in Hx. destruct (ins_split x Hx) as [(I1 & I2)|(I1 & p & Ep & I2)].
      + assert (Hxn : x <> n) by (intros ->; apply I2; constructor). unfold root_of. rewrite (Hl x Hxn).
        apply Hr. now apply top_above.
      + apply (top_above _ _ _ Ht) in I2. destruct (Nat.eq_dec x n) as [->|Hxn].
        * apply (Hn p Ep I2). now apply Hr.
        * unfold root_of. rewrite (Hl x Hxn). now apply (Hs p x Ep I2 I1).
  Qed.
End Insert.

(* the four insertions *)
Lemma insert_links o D D' F n : InvF D F -> step o D = Ok D' -> inserted o = Some n ->
  (forall m, parent (lk D') m = if Nat.eqb m n then new_parent o D else parent (lk D) m) /\
  (forall m, m <> n -> l_root (lk D') m = l_root (lk D) m) /\
  (forall t p, new_parent o D = Some p -> (forall x, top_of (lk D) x t -> root_of (lk D) x = t) ->
     top_of (lk D) p t -> root_of (lk D') n = t).
Proof.
  intros I H Ho. pose proof (iv_rep D F I) as R. pose proof (r_wf _ _ R) as W.
  destruct o; cbn in Ho; try easy; injection Ho as <-; cbn [step new_parent] in *; unfold on_links in H; ok_bind H L' E;
    injection H as <-; cbn [with_lk lk].
  - pose proof (append_refines [] p n0 (lk D) F R) as Hr.
    destruct (Nat.eqb_spec p n0) as [|Hpn]; [congruence|]. destruct (append_conflict _ _ _ _); [congruence|].
    destruct Hr as (L1 & E1 & R1 & Hl). rewrite E in E1. injection E1 as <-. split; [|split].
    + intros m. unfold parent. rewrite (r_parent _ _ R1), (r_parent _ _ R). now apply parent_append.
    + intros m Hm. rewrite Hl. now destruct (Nat.eqb_spec m n0).
    + intros t q [= <-] Hr Hq. unfold root_of. rewrite Hl, Nat.eqb_refl. exact (Hr p Hq).
  - pose proof (prepend_refines [] p n0 (lk D) F R) as Hr.
    destruct (Nat.eqb_spec p n0) as [|Hpn]; [congruence|]. destruct (prepend_conflict _ _ _ _); [congruence|].
    destruct Hr as (L1 & E1 & R1 & Hl). rewrite E in E1. injection E1 as <-. split; [|split].
    + intros m. unfold parent. rewrite (r_parent _ _ R1), (r_parent _ _ R). now apply parent_prepend.
    + intros m Hm. rewrite Hl. now destruct (Nat.eqb_spec m n0).
    + intros t q [= <-] Hr Hq. unfold root_of. rewrite Hl, Nat.eqb_refl. exact (Hr p Hq).
  - pose proof (insert_after_refines [] a n0 (lk D) F R) as Hr.
    destruct (Nat.eqb_spec a n0) as [|Hpn]; [congruence|]. destruct (insert_after_conflict _ _ _ _); [congruence|].
    destruct Hr as (L1 & E1 & R1 & Hl). rewrite E in E1. injection E1 as <-. split; [|split].
    + intros m. unfold parent. rewrite (r_parent _ _ R1), !(r_parent _ _ R). now apply parent_insert_after.
    + intros m Hm. rewrite Hl. now destruct (Nat.eqb_spec m n0).
    + intros t q Eq Hr Hq. unfold root_of. rewrite Hl, Nat.eqb_refl.
      assert (Ha : root_of (lk D) a = t) by (apply Hr; now apply (top_up _ a q)). unfold root_of in Ha.
      destruct (l_root (lk D) a); [easy|]. subst t. apply top_parent in Hq. congruence.
  - pose proof (insert_before_refines [] a n0 (lk D) F R) as Hr.
    destruct (Nat.eqb_spec a n0) as [|Hpn]; [congruence|]. destruct (insert_before_conflict _ _ _ _); [congruence|].
    destruct Hr as (L1 & E1 & R1 & Hl). rewrite E in E1. injection E1 as <-. split; [|split].
    + intros m. unfold parent. rewrite (r_parent _ _ R1), !(r_parent _ _ R). now apply parent_insert_before.
    + intros m Hm. rewrite Hl. now destruct (Nat.eqb_spec m n0).
    + intros t q Eq Hr Hq. unfold root_of. rewrite Hl, Nat.eqb_refl.
      assert (Ha : root_of (lk D) a = t) by (apply Hr; now apply (top_up _ a q)). unfold root_of in Ha.
      destruct (l_root (lk D) a); [easy|]. subst t. apply top_parent in Hq. congruence.
Qed.

Lemma no_cycle_parent o D n p : inserted o = Some n -> new_parent o D = Some p -> no_cycle_made o D -> ~ above (lk D) n p.
Proof.
  intros Ho Hp Hc. destruct o; cbn in *; try easy; injection Ho as <-; try (injection Hp as <-; easy).
  - intros Ha. apply Hc. now apply (above_up _ _ a p).
  - intros Ha. apply Hc. now apply (above_up _ _ a p).
Qed.

Theorem insert_right o D D' t n : reachable_tame D -> no_cycle_made o D -> step o D = Ok D' -> inserted o = Some n -> n <> t ->
  root_right t D -> (root_right t D' <-> root_ready t o D).
Proof.
  intros T Hc Hs Ho Hnt (Ht & Hr). destruct (tame_inv D T) as (F & I & _).
  destruct (insert_links o D D' F n I Hs Ho) as (Hp & Hl & Hn).
  assert (Hq : forall p, new_parent o D = Some p -> ~ above (lk D) n p) by (intros p Ep; now apply (no_cycle_parent o)).
  pose proof (ins_parent (lk D) (lk D') t n (new_parent o D) Ht Hnt Hp) as Ht'.
  assert (Hn' : forall p, new_parent o D = Some p -> top_of (lk D) p t -> root_of (lk D) p = t -> root_of (lk D') n = t).
  { intros p Ep Htop _. now apply (Hn t p). }
  pose proof (ins_right (lk D) (lk D') t n (new_parent o D) Ht Hnt Hq Hp Hl Hn' Hr) as (G1 & G2).
  split.
  - intros (_ & Hr') m p x Em Ep Htop Hx Hxm. rewrite Ho in Em. injection Em as <-. now apply (G1 Hr' p x).
  - intros Hs'. split; [easy|]. apply G2. intros p x Ep Htop Hx Hxm. now apply (Hs' n p x).
Qed.

(* the other calls *)
Lemma right_remove t n D D' F : InvF D F -> acyclic F -> root_right t D -> n < fresh D -> remove_node n D = Ok D' -> root_right t D'.
Proof.
  intros I A T Hn H. destruct (tree_exists F n) as (t0 & Et & Ht); [apply I|easy|].
  destruct (remove_node_spec D F t0 I Ht) as (D1 & E & I1 & R); [now rewrite Et|].
  rewrite Et, H in E. injection E as <-. apply (right_shrink t D D' T); [apply R|].
  intros m p. unfold parent. rewrite (r_parent _ _ (iv_rep _ _ I1)), (r_parent _ _ (iv_rep _ _ I)). cbn.
  now destruct (mem m (preorder t0)).
Qed.

Lemma right_drain t f fuel : forall n s s', Inv True (fst s) -> root_right t (fst s) -> (forall m, n = Some m -> m < fresh (fst s)) ->
  drain_loop fuel f n s = Ok s' -> Inv True (fst s') /\ root_right t (fst s') /\ fresh (fst s') = fresh (fst s).
Proof.
  induction fuel as [|fuel IH]; intros n [D k] s' I T Hn H; [easy|]. cbn [drain_loop fst snd] in H, I, T, Hn.
  destruct n as [n|]; [|injection H as <-; easy]. specialize (Hn n eq_refl).
  destruct (f D n).
  - ok_bind H D1 E. pose proof I as (F & IF & HA).
    pose proof (right_remove t n D D1 F IF (HA Logic.I) T Hn E) as T1.
    unfold remove_node in E. destruct (remove_rec_inv _ _ _ _ _ I E) as (I1 & Hs1). pose proof (proj1 Hs1) as F1.
    apply (IH (next_sibling (lk D) n) (D1, S k) s' I1 T1) in H.
    2:{ cbn [fst]. intros m Hm. rewrite F1. now apply (next_lt D n m). }
    destruct H as (I2 & T2 & F2). cbn [fst] in *. split; [easy|]. split; [easy|congruence].
  - ok_bind H s1 E.
    assert (H1 : Inv True (fst s1) /\ root_right t (fst s1) /\ fresh (fst s1) = fresh D).
    { destruct (has_children (lk D) n).
      - apply (IH _ (D, k) _ I T) in E; [easy|]. intros m Hm. exact (first_lt D _ m I Hm).
      - injection E as <-. easy. }
    destruct H1 as (I1 & T1 & F1). apply (IH _ s1 s' I1 T1) in H.
    2:{ intros m Hm. apply (next_lt (fst s1) n m I1); [lia|easy]. }
    destruct H as (I2 & T2 & F2). cbn. split; [easy|]. split; [easy|congruence].
Qed.

(* appending a new node *)
Lemma right_append_new t D F p n L' : InvF D F -> root_right t D -> n <> t -> isolated F n -> append [] p n (lk D) = Ok L' ->
  root_right t (with_lk L' D).
Proof.
  intros I (Ht & Hr) Hnt J E.
  assert (Hs : step (OAppend p n) D = Ok (with_lk L' D)) by (cbn; unfold on_links; now rewrite E).
  destruct (insert_links _ D _ F n I Hs eq_refl) as (Hp & Hl & Hn). cbn [new_parent with_lk lk] in Hp, Hl, Hn.
  assert (Hpn : p <> n) by (intros ->; unfold append in E; now rewrite Nat.eqb_refl in E).
  assert (Hx : forall x, above (lk D) n x -> x = n).
  { intros x Hx. apply (above_anc _ F) in Hx; [|apply I]. apply iso_anc in Hx; [|apply I|easy]. easy. }
  split; [cbn; now apply (ins_parent (lk D) L' t n (Some p))|]. cbn [with_lk lk].
  apply (ins_right (lk D) L' t n (Some p)); auto.
  - intros q [= <-] Ha. now apply Hx in Ha.
  - intros q [= <-] H1 H2. now apply (Hn t p).
  - intros q x _ _ Ha Hxn. now apply Hx in Ha.
Qed.

Lemma right_deep t fuel : forall p n D D', Inv True D -> root_right t D -> t < fresh D -> p < fresh D ->
  make_deep_copy fuel p n D = Ok D' -> root_right t D'.
Proof.
  induction fuel as [|fuel IH]; intros p n D D' I T Htf Hp H; [easy|]. cbn [make_deep_copy] in H.
  assert (HH : Inv True D' /\ root_right t D' /\ fresh D <= fresh D'); [|tauto].
  eapply (for_children_inv lk (fun X => Inv True X /\ root_right t X /\ fresh D <= fresh X)); [|split;[exact I|split;[exact T|apply le_n]]|exact H].
  intros c s s' ((F & Is & HA) & Ts & Hle) Hb. cbv beta in Hb.
  ok_bind Hb r E. destruct (copy_node_inv c s F r Is E) as (Hn & I1 & Hl & Hf & Hr).
  pose proof (right_same t s (snd r) Ts Hl) as T1.
  ok_bind Hb L' E2.
  assert (I2 : InvF (with_lk L' (snd r)) (f_append p (fst r) F)).
  { apply append_inv; [easy|lia|lia|easy]. }
  assert (HA2 : True -> acyclic (f_append p (fst r) F)).
  { intros a. apply acyclic_append; [apply Is|auto|]. intros Hanc.
    apply iso_anc in Hanc; [|apply Is|apply (iv_iso s F Is); lia]. lia. }
  assert (I3 : Inv True (with_lk L' (snd r))) by now exists (f_append p (fst r) F).
  assert (T2 : root_right t (with_lk L' (snd r))).
  { apply (right_append_new t (snd r) F p (fst r) L' I1 T1); [lia| |easy]. apply (iv_iso s F Is). lia. }
  destruct (has_children _ c).
  - assert (Hlt : fst r < fresh (with_lk L' (snd r))) by (cbn; lia).
    pose proof (deep_copy_inv True _ _ _ _ _ I3 Hlt Hb) as (I4 & Hle4 & _). cbn in Hle4.
    apply IH in Hb; [|easy|exact T2|cbn; lia|cbn; lia]. split; [easy|]. split; [easy|lia].
  - injection Hb as <-. split; [easy|]. split; [exact T2|cbn; lia].
Qed.

Theorem other_right o D D' t : reachable_tame D -> exists_node D t -> legal o D -> inserted o = None -> step o D = Ok D' ->
  root_right t D -> root_right t D'.
Proof.
  intros Tm Htf Hl Ho H T. pose proof (tame_inv D Tm) as I. pose proof I as (F & IF & HA).
  destruct Hl as (Hn & Hp). unfold exists_node in Hn, Htf.
  destruct o; cbn [step handles inserted] in *; try easy.
  - ok_bind H r E. injection H as <-. apply (create_element_inv D F) in E; [|easy].
    apply (right_same t D); tauto.
  - ok_bind H r E. injection H as <-. apply (create_node_inv D F) in E; [|easy].
    apply (right_same t D); tauto.
  - apply (right_remove t n D D' F IF (HA Logic.I) T); [apply Hn; now left|easy].
  - ok_bind H r E. injection H as <-. unfold drain in E. apply (right_drain t f _ _ (D, 0) r I T) in E; [easy|].
    intros m Hm. exact (first_lt D _ m I Hm).
  - ok_bind H r E. injection H as <-. apply (copy_node_inv n D F) in E; [|easy]. apply (right_same t D); tauto.
  - ok_bind H r E. injection H as <-. unfold copy_node_deep in E. ok_bind E r1 E1. ok_bind E D2 E2.
    injection E as <-. cbn [snd]. destruct (copy_node_inv n D F r1 IF E1) as (Hf & I1 & Hlk & Hs & Hr).
    assert (I1' : Inv True (snd r1)) by now exists F.
    assert (Hlt : fst r1 < fresh (snd r1)) by lia. assert (Hlt2 : t < fresh (snd r1)) by lia.
    exact (right_deep t _ _ _ _ _ I1' (right_same t D (snd r1) T Hlk) Hlt2 Hlt E2).
  - unfold on_links in H. ok_bind H L' E. injection H as <-.
    pose proof (detach_refines [] n (lk D) F (iv_rep D F IF)) as Hr. destruct (_ || _); [congruence|].
    destruct Hr as (L1 & E1 & R1 & Hl1). rewrite E in E1. injection E1 as <-.
    apply (right_shrink t D); auto. intros m p. cbn [with_lk lk]. unfold parent.
    rewrite (r_parent _ _ R1), (r_parent _ _ (iv_rep D F IF)). cbn. now destruct (Nat.eqb m n).
  - unfold set_text in H. destruct (is_element D n); [easy|]. injection H as <-. now apply (right_same t D).
  - injection H as <-. now apply (right_same t D).
  - unfold set_id in H. destruct (is_element D n); [|easy]. injection H as <-. now apply (right_same t D).
  - unfold set_tag_name in H. destruct (is_element D n); [|easy]. cbn in H.
    destruct (empty_tag t0); [easy|]. injection H as <-. now apply (right_same t D).
  - apply (set_attribute_inv D F) in H; [|easy]. destruct H as (_ & []). now apply (right_same t D).
  - ok_bind H r E. injection H as <-. apply (set_checked_inv D F) in E; [|easy]. destruct E as (_ & []).
    now apply (right_same t D).
  - unfold set_attribute_if_none in H. destruct (negb _).
    + apply (set_attribute_inv D F) in H; [|easy]. destruct H as (_ & []). now apply (right_same t D).
    + now injection H as <-.
  - destruct (remove_attribute_inv D F n name IF) as (D1 & E & I1 & Hf). rewrite E in H. injection H as <-.
    destruct Hf. now apply (right_same t D).
  - injection H as <-. now apply (right_same t D).
Qed.

Theorem ready_tame D : reachable_ready D -> reachable_tame D.
Proof. induction 1 as [D H|D o D' H IH Hl Hc Hi Hr Hs]; [now apply tame_new|]. now apply (tame_step D o D'). Qed.

Lemma root_exists D : reachable D -> exists_node D (droot D).
Proof. intros H. destruct (reachable_inv D H) as (F & I & _). apply (iv_rlt D F I). Qed.
Lemma step_droot o D D' : reachable D -> legal o D -> step o D = Ok D' -> droot D' = droot D.
Proof.
  intros H Hl Hs. destruct (step_inv False o D D' (reachable_inv D H) Hl) as (_ & E); [easy|easy|]. apply E.
Qed.

Theorem ready_right D : reachable_ready D -> root_right (droot D) D.
Proof.
  induction 1 as [D H|D o D' H IH Hl Hc Hi Hr Hs].
  - unfold new_document, alloc in H. cbn in H. injection H as <-. split; [easy|]. intros x Hx. cbn in *.
    inversion Hx; subst; easy.
  - pose proof (ready_tame D H) as T. pose proof (tame_reachable D T) as R. rewrite (step_droot o D D' R Hl Hs).
    destruct (inserted o) as [n|] eqn:Eo.
    + now apply (insert_right o D D' (droot D) n); auto; congruence.
    + apply (other_right o D D' (droot D)); auto. now apply root_exists.
Qed.
Theorem ready_root D n : reachable_ready D -> top_of (lk D) n (droot D) -> root_of (lk D) n = droot D.
Proof. intros H. apply (ready_right D H). Qed.

(* new nodes *)
Theorem new_right n D' : reachable D' -> parent (lk D') n = None -> first_child (lk D') n = None ->
  root_of (lk D') n = n -> root_right n D'.
Proof.
  intros R Hp Hf Hr. split; [easy|]. intros x Hx. apply (top_above _ _ _ Hp) in Hx.
  destruct (reachable_inv D' R) as (F & I & _). destruct (Nat.eq_dec x n) as [->|Hxn]; [easy|].
  assert (Hc : exists c, parent (lk D') c = Some n).
  { induction Hx as [|a m q Hq Ha IH]; [easy|]. destruct (Nat.eq_dec q a) as [->|]; eauto. }
  destruct Hc as (c & Hc). now apply (leaf_parent (lk D') F n (iv_rep D' F I) Hf) in Hc.
Qed.

(* childless nodes *)
Lemma leafy_step_ready o D : reachable D -> leafy o D -> inserted o <> Some (droot D) /\ root_ready (droot D) o D.
Proof.
  intros R Hl. destruct (reachable_inv D R) as (F & I & _).
  assert (Hx : forall n x, first_child (lk D) n = None -> above (lk D) n x -> x = n).
  { intros n x Hf Hx. destruct (Nat.eq_dec x n) as [->|Hxn]; [easy|].
    assert (Hc : exists c, parent (lk D) c = Some n).
    { clear Hf. induction Hx as [|a m q Hq Ha IH]; [easy|]. destruct (Nat.eq_dec q a) as [->|]; eauto. }
    destruct Hc as (c & Hc). now apply (leaf_parent (lk D) F n (iv_rep D F I) Hf) in Hc. }
  split.
  - destruct o; cbn in *; try easy; intros [= ->]; now destruct Hl.
  - intros n p x Ho _ _ Ha Hxn. destruct o; cbn in *; try easy; injection Ho as <-; destruct Hl as (Hf & _);
      now apply Hx in Ha.
Qed.
Theorem leafy_ready D : reachable_leafy D -> reachable_ready D.
Proof.
  induction 1 as [D H|D o D' H IH Hl Hf Hs]; [now apply ready_new|].
  pose proof (leafy_tame D H) as T. destruct (tame_inv D T) as (F & I & _).
  destruct (leafy_step_ready o D (tame_reachable D T) Hf) as (H1 & H2).
  apply (ready_step D o D'); auto. now apply (leafy_no_cycle o D D' F).
Qed.

(* subtrees that are already in the tree *)
Lemma inside_ready t o D n : root_right t D -> inserted o = Some n -> top_of (lk D) n t -> root_ready t o D.
Proof.
  intros (Ht & Hr) Ho Hn m p x Em _ _ Hx _. rewrite Ho in Em. injection Em as <-. apply Hr.
  apply (top_above _ _ _ Ht). apply (top_above _ _ _ Ht) in Hn. now apply (above_trans _ t n x).
Qed.
