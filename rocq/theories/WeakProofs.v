(* Dropping handles changes no call in orderly histories. *)
From Coq Require Import List Bool PeanoNat NArith Lia.
From Verif Require Import Base Ids Links Tree Iter ForestSpec ListFacts TreeProofs ForestFacts IterSpec IterProofs
  PruneFacts Data Attrs Slab SlabProofs NodeApi Doc AttrFacts LinkProofs DocSpec RemoveProofs RemoveExact History InvProofs
  HistoryProofs DrainProofs TidyProofs RootProofs RootSpec RootExact TreeSpec TreeApi ApiProofs DocApi LifeSpec LifeProofs
  Weak WeakSpec.
Import ListNotations.

(* ---- calls of tree.rs *)
Definition pointed (L : links) (y : nid) : Prop :=
  exists x, l_parent L x = Some y \/ l_last L x = Some y \/ l_prev L x = Some y.

Lemma up_parent alive L x : (forall y, pointed L y -> alive y = true) -> upgrade alive (l_parent L x) = l_parent L x.
Proof. intros H. unfold upgrade. destruct (l_parent L x) as [y|] eqn:E; [|reflexivity]. rewrite H; [reflexivity|]. exists x. now left. Qed.
Lemma up_last alive L x : (forall y, pointed L y -> alive y = true) -> upgrade alive (l_last L x) = l_last L x.
Proof. intros H. unfold upgrade. destruct (l_last L x) as [y|] eqn:E; [|reflexivity]. rewrite H; [reflexivity|]. exists x. now right; left. Qed.
Lemma up_prev alive L x : (forall y, pointed L y -> alive y = true) -> upgrade alive (l_prev L x) = l_prev L x.
Proof. intros H. unfold upgrade. destruct (l_prev L x) as [y|] eqn:E; [|reflexivity]. rewrite H; [reflexivity|]. exists x. now right; right. Qed.

Lemma detach_data_same alive G n L : (forall y, pointed L y -> alive y = true) -> w_detach_data alive G n L = detach_data G n L.
Proof. intros H. unfold w_detach_data, detach_data. now rewrite (up_parent alive L n H), (up_prev alive L n H). Qed.

Lemma pointed_set_parent n v L y : pointed (set_parent n v L) y -> pointed L y \/ v = Some y.
Proof.
  intros (x & [H|[H|H]]); cbn in H; [|left; exists x; tauto|left; exists x; tauto].
  rewrite upd_eq in H. destruct (Nat.eqb x n); [now right|]. left. exists x. tauto.
Qed.
Lemma pointed_set_last n v L y : pointed (set_last n v L) y -> pointed L y \/ v = Some y.
Proof.
  intros (x & [H|[H|H]]); cbn in H; [left; exists x; tauto| |left; exists x; tauto].
  rewrite upd_eq in H. destruct (Nat.eqb x n); [now right|]. left. exists x. tauto.
Qed.
Lemma pointed_set_prev n v L y : pointed (set_prev n v L) y -> pointed L y \/ v = Some y.
Proof.
  intros (x & [H|[H|H]]); cbn in H; [left; exists x; tauto|left; exists x; tauto|].
  rewrite upd_eq in H. destruct (Nat.eqb x n); [now right|]. left. exists x. tauto.
Qed.
Lemma pointed_set_next n v L y : pointed (set_next n v L) y -> pointed L y.
Proof. intros (x & H). now exists x. Qed.
Lemma pointed_set_first n v L y : pointed (set_first n v L) y -> pointed L y.
Proof. intros (x & H). now exists x. Qed.
Lemma pointed_set_root n v L y : pointed (set_root n v L) y -> pointed L y.
Proof. intros (x & H). now exists x. Qed.

Lemma detach_pointed G n L L' y : detach_data G n L = Ok L' -> pointed L' y -> pointed L y.
Proof.
  intros H. unfold detach_data in H.
  set (L0 := set_next n None (set_prev n None (set_parent n None L))) in H.
  assert (H0 : forall z, pointed L0 z -> pointed L z).
  { intros z Hz. apply pointed_set_next in Hz. apply pointed_set_prev in Hz. destruct Hz as [Hz|]; [|discriminate].
    apply pointed_set_parent in Hz. now destruct Hz. }
  assert (Hv : forall z, l_prev L n = Some z -> pointed L z) by (intros z Hz; exists n; tauto).
  destruct (match l_next L n with Some _ => _ | None => _ end) as [L1| |] eqn:E1 in H; try discriminate. cbn [bind] in H.
  assert (H1 : forall z, pointed L1 z -> pointed L z).
  { intros z Hz. destruct (l_next L n) as [nx|].
    - unfold borrow_mut in E1. destruct (mem nx G); [discriminate|]. injection E1 as <-.
      apply pointed_set_prev in Hz. destruct Hz; auto.
    - destruct (l_parent L n) as [p|]; [|injection E1 as <-; auto].
      unfold borrow_mut in E1. destruct (mem p G); [discriminate|]. injection E1 as <-.
      apply pointed_set_last in Hz. destruct Hz; auto. }
  unfold borrow_mut in H. destruct (l_prev L n) as [pv|].
  - destruct (mem pv G); [discriminate|]. injection H as <-. intros Hz. apply H1. eapply pointed_set_next, Hz.
  - destruct (l_parent L n) as [p|]; [|injection H as <-; auto].
    destruct (mem p G); [discriminate|]. injection H as <-. intros Hz. apply H1. eapply pointed_set_first, Hz.
Qed.

Section Calls.
Variables (alive : nid -> bool) (L : links).
Hypothesis HL : forall y, pointed L y -> alive y = true.

Lemma detach_same G n : w_detach alive G n L = detach G n L.
Proof. unfold w_detach, detach. now rewrite (detach_data_same alive _ _ L HL). Qed.

Lemma after_detach G p n (k1 k2 : links -> res links) :
  (forall L1, (forall y, pointed L1 y -> alive y = true) -> k1 L1 = k2 L1) ->
  borrow_mut G p (borrow_mut (p :: G) n (L1 <- w_detach_data alive (n :: p :: G) n L ;; k1 L1)) =
  borrow_mut G p (borrow_mut (p :: G) n (L1 <- detach_data (n :: p :: G) n L ;; k2 L1)).
Proof.
  intros H. unfold borrow_mut at 1 3. destruct (mem p G); [reflexivity|]. unfold borrow_mut. destruct (mem n (p :: G)); [reflexivity|].
  rewrite (detach_data_same alive _ _ L HL). destruct (detach_data (n :: p :: G) n L) as [L1| |] eqn:E1; [|reflexivity|reflexivity].
  cbn [bind]. apply H. intros y Hy. apply HL, (detach_pointed _ n L L1 y E1 Hy).
Qed.

Lemma append_same G p n : w_append alive G p n L = append G p n L.
Proof.
  unfold w_append, append. destruct (Nat.eqb p n); [reflexivity|]. apply after_detach. intros L1 HL1.
  cbn [set_root set_parent l_last]. now rewrite (up_last alive L1 p HL1).
Qed.
Lemma prepend_same G p n : w_prepend alive G p n L = prepend G p n L.
Proof. unfold w_prepend, prepend. destruct (Nat.eqb p n); [reflexivity|]. apply after_detach. reflexivity. Qed.
Lemma insert_before_same G a n : w_insert_before alive G a n L = insert_before G a n L.
Proof.
  unfold w_insert_before, insert_before. destruct (Nat.eqb a n) eqn:Ean; [reflexivity|]. apply after_detach. intros L1 HL1. cbv zeta.
  set (L2 := set_next n (Some a) (set_parent n (l_parent (set_root n (l_root L1 a) L1) a) (set_root n (l_root L1 a) L1))).
  change (l_prev L2 a) with (l_prev L1 a). rewrite (up_prev alive L1 a HL1).
  destruct (l_prev L1 a) as [pv|]; [reflexivity|].
  assert (Ep : l_parent (set_prev a (Some n) (set_prev a None L2)) a = l_parent L1 a) by (cbn; rewrite upd_eq, Ean; reflexivity).
  rewrite Ep, (up_parent alive L1 a HL1). reflexivity.
Qed.
Lemma insert_after_same G a n : w_insert_after alive G a n L = insert_after G a n L.
Proof.
  unfold w_insert_after, insert_after. destruct (Nat.eqb a n) eqn:Ean; [reflexivity|]. apply after_detach. intros L1 HL1. cbv zeta.
  set (L2 := set_next a None (set_prev n (Some a) (set_parent n (l_parent L1 a) (set_root n (l_root L1 a) L1)))).
  assert (Ep : l_parent L2 a = l_parent L1 a) by (cbn; rewrite upd_eq, Ean; reflexivity).
  change (l_next (set_prev n (Some a) (set_parent n (l_parent (set_root n (l_root L1 a) L1) a) (set_root n (l_root L1 a) L1))) a) with (l_next L1 a).
  change (set_next a None (set_prev n (Some a) (set_parent n (l_parent (set_root n (l_root L1 a) L1) a) (set_root n (l_root L1 a) L1)))) with L2.
  destruct (l_next L1 a) as [nx|].
  - f_equal. unfold borrow_mut. destruct (mem nx (n :: a :: G)) eqn:Em; [reflexivity|].
    assert (En : Nat.eqb nx n = false).
    { destruct (Nat.eqb_spec nx n) as [->|]; [|reflexivity]. rewrite <- Em. symmetry. apply mem_In. now left. }
    assert (Ev : l_prev L2 nx = l_prev L1 nx) by (cbn; rewrite upd_eq, En; reflexivity).
    rewrite Ev, (up_prev alive L1 nx HL1). reflexivity.
  - rewrite Ep, (up_parent alive L1 a HL1). reflexivity.
Qed.
Lemma children_same n : w_children alive L n = children L n.
Proof. unfold w_children, children, w_last_child. now rewrite (up_last alive L n HL). Qed.
Lemma getters_same n : w_parent alive L n = parent L n /\ w_last_child alive L n = last_child L n /\
  w_previous_sibling alive L n = previous_sibling L n.
Proof. split; [apply up_parent, HL|]. split; [apply up_last, HL|apply up_prev, HL]. Qed.
End Calls.

(* ---- documents in which removed nodes stand alone *)
Lemma lone_pointed D y : lone D -> pointed (lk D) y -> storage_key D y <> None.
Proof.
  intros (F & I & A & HL) (x & H). pose proof (iv_rep D F I) as R. pose proof (r_wf _ _ R) as W.
  intros E. apply HL in E. destruct H as [H|[H|H]].
  - rewrite (r_parent _ _ R) in H. destruct E as (_ & _ & J).
    pose proof (wf_self F W x) as Hs. rewrite (wf_parent F W x y H), J in Hs. easy.
  - rewrite (r_last _ _ R) in H. apply last_error_In in H. destruct E as (J & _). rewrite (wf_child F W x y H) in J. discriminate.
  - rewrite (r_prev _ _ R) in H. unfold pred_in in H. destruct (succ_in_In _ _ _ H) as (H1 & H2). apply in_rev in H2.
    assert (Hne : y <> x) by (apply (succ_in_neq x (rev (siblings_of F x))); [apply NoDup_rev, W|exact H]).
    now apply (proj1 (shared_sibling D F x y I H2 Hne)).
Qed.
Lemma lone_alive w D y : owned_live w -> lone D -> pointed (lk D) y -> w D y = true.
Proof.
  intros Hw HD Hp. apply Hw. pose proof (lone_pointed D y HD Hp) as Hk. destruct HD as (F & I & _).
  right. now apply (owned_iff D F y I).
Qed.

Lemma lone_rec fuel D n D' : lone D -> n < fresh D -> remove_rec fuel n D = Ok D' -> lone D' /\ fresh D' = fresh D.
Proof.
  intros T Hn H. apply (lone_remove D n D' T Hn). unfold remove_node.
  pose proof T as (F & I & A & HL). destruct (tree_exists F n) as (t & Et & Ht); [apply I|exact A|].
  destruct (remove_node_spec D F t I Ht) as (D1 & E & _); [now rewrite Et|]. rewrite Et in E. unfold remove_node in E.
  destruct (Nat.le_gt_cases fuel (enough D)) as [Hf|Hf].
  - rewrite (remove_rec_mono fuel (enough D) n D Hf); [exact H|rewrite H; discriminate].
  - rewrite <- (remove_rec_mono (enough D) fuel n D); [exact H|lia|rewrite E; discriminate].
Qed.

Section Document.
Variable w : dom -> nid -> bool.
Hypothesis Hw : owned_live w.

Lemma finish_same n D : lone D -> w_remove_finish w n D = remove_finish n D.
Proof.
  intros T. unfold w_remove_finish, remove_finish. rewrite (detach_same (w D) (lk D)); [reflexivity|].
  intros y. now apply lone_alive.
Qed.

Lemma rec_same fuel : forall n D, lone D -> n < fresh D -> w_remove_rec w fuel n D = remove_rec fuel n D.
Proof.
  induction fuel as [|fuel IH]; intros n D T Hn; [reflexivity|]. cbn [w_remove_rec remove_rec].
  destruct (remove_links n D) as [D1| |] eqn:E1; [|reflexivity|reflexivity]. cbn [bind].
  assert (T1 : lone D1 /\ fresh D1 = fresh D).
  { pose proof T as (F & I & A & HL). destruct (remove_links_inv n D F I) as (D1' & E & I1 & Hf).
    rewrite E1 in E. injection E as <-. split; [|apply Hf]. exists F. split; [exact I1|]. split; [exact A|].
    intros m Hm. rewrite (fr_key _ _ Hf) in Hm. now apply HL. }
  destruct T1 as (T1 & F1). rewrite (children_same (w D1) (lk D1)); [|intros y; now apply lone_alive].
  assert (Hloop : forall f it D2, lone D2 -> (forall m, c_next it = Some m -> m < fresh D2) ->
    for_children lk f (w_remove_rec w fuel) it D2 = for_children lk f (remove_rec fuel) it D2 /\
    forall D3, for_children lk f (remove_rec fuel) it D2 = Ok D3 -> lone D3).
  { induction f as [|f IHf]; intros it D2 T2 Hit; [split; [reflexivity|discriminate]|]. cbn [for_children].
    unfold children_next. destruct (children_finished (lk D2) it); [split; [reflexivity|intros D3 [= <-]; exact T2]|].
    destruct (c_next it) as [c|] eqn:Ec; [|split; [reflexivity|intros D3 [= <-]; exact T2]].
    specialize (Hit c eq_refl). rewrite (IH c D2 T2 Hit).
    destruct (remove_rec fuel c D2) as [D3| |] eqn:E3; [|split; [reflexivity|discriminate]|split; [reflexivity|discriminate]].
    cbn [bind]. destruct (lone_rec fuel D2 c D3 T2 Hit E3) as (T3 & F3). apply IHf; [exact T3|].
    cbn [c_next]. intros m Hm. rewrite F3. exact (next_lt D2 c m (lone_inv D2 T2) Hit Hm). }
  destruct (Hloop fuel (children (lk D1) n) D1 T1) as (El & HT).
  { intros m Hm. exact (first_lt D1 n m (lone_inv D1 T1) Hm). }
  rewrite El. destruct (for_children lk fuel (remove_rec fuel) (children (lk D1) n) D1) as [D3| |]; [|reflexivity|reflexivity].
  cbn [bind]. apply finish_same, HT. reflexivity.
Qed.
Lemma remove_same n D : lone D -> n < fresh D -> w_remove_node w n D = remove_node n D.
Proof. apply rec_same. Qed.

Lemma drain_same f fuel : forall n s, lone (fst s) -> (forall m, n = Some m -> m < fresh (fst s)) ->
  w_drain_loop w fuel f n s = drain_loop fuel f n s.
Proof.
  induction fuel as [|fuel IH]; intros n [D k] T Hn; [reflexivity|]. cbn [w_drain_loop drain_loop fst snd] in *.
  destruct n as [n|]; [|reflexivity]. specialize (Hn n eq_refl). pose proof (lone_inv D T) as I. destruct (f D n).
  - rewrite (remove_same n D T Hn). destruct (remove_node n D) as [D1| |] eqn:E; [|reflexivity|reflexivity]. cbn [bind].
    destruct (lone_remove D n D1 T Hn E) as (T1 & F1). apply IH; [exact T1|]. cbn [fst].
    intros m Hm. rewrite F1. exact (next_lt D n m I Hn Hm).
  - assert (Hf : forall m, first_child (lk D) n = Some m -> m < fresh D) by (intros m; exact (first_lt D n m I)).
    assert (Es : (if has_children (lk D) n then w_drain_loop w fuel f (first_child (lk D) n) (D, k) else Ok (D, k)) =
                 (if has_children (lk D) n then drain_loop fuel f (first_child (lk D) n) (D, k) else Ok (D, k))).
    { destruct (has_children (lk D) n); [|reflexivity]. exact (IH _ (D, k) T Hf). }
    rewrite Es. clear Es. destruct (if has_children (lk D) n then drain_loop fuel f (first_child (lk D) n) (D, k) else Ok (D, k)) as [s1| |] eqn:E; [|reflexivity|reflexivity]. cbn [bind].
    assert (H1 : lone (fst s1) /\ fresh (fst s1) = fresh D).
    { destruct (has_children (lk D) n); [exact (lone_drain f fuel _ (D, k) s1 T Hf E)|]. injection E as <-. split; [exact T|reflexivity]. }
    destruct H1 as (T1 & F1). apply IH; [exact T1|]. intros m Hm.
    apply (next_lt (fst s1) n m (lone_inv _ T1)); [rewrite F1; exact Hn|exact Hm].
Qed.

Lemma copied c p s r : lone s -> p < fresh s -> storage_key s p <> None -> copy_node c s = Ok r ->
  lone (snd r) /\ forall L', append [] p (fst r) (lk (snd r)) = Ok L' ->
    let D := with_lk L' (snd r) in
    lone D /\ fst r < fresh D /\ storage_key D (fst r) <> None /\ p < fresh D /\ storage_key D p <> None.
Proof.
  intros Ts Hp Hs E. destruct (lone_inv s Ts) as (F & Is & HA).
  destruct (copy_node_inv c s F r Is E) as (Hn & I1 & Hl & Hf & Hr). pose proof (kept_copy c s F r Is E) as K1.
  assert (T1 : lone (snd r)) by (apply (lone_kept s); [exact Ts|now exists F|exact Hl|exact K1]).
  split; [exact T1|]. intros L' E2 D.
  assert (I2 : InvF (with_lk L' (snd r)) (f_append p (fst r) F)) by (apply append_inv; [exact I1|lia|lia|exact E2]).
  assert (HA2 : acyclic (f_append p (fst r) F)).
  { apply acyclic_append; [apply Is|auto|]. intros Hanc.
    apply iso_anc in Hanc; [|apply Is|apply (iv_iso s F Is); lia]. lia. }
  assert (Sp : storage_key (snd r) p <> None) by (apply (kept_stored s); [exact K1|lia|now left]).
  assert (Sn : storage_key (snd r) (fst r) <> None) by (apply (kept_stored s); [exact K1|lia|right; lia]).
  split; [|split; [cbn; lia|split; [exact Sn|split; [cbn; lia|exact Sp]]]].
  apply (lone_move (snd r) L' (f_append p (fst r) F)); [exact T1|exact I2|exact HA2|].
  intros F2 I2' m Hm Hk. pose proof (iv_rep _ _ I1) as R1. pose proof (iv_rep _ _ I2') as R2.
  apply shows_Rep in R1, R2. destruct (forest_eq_shows _ _ _ R2 R1) as (E1 & E3 & E4).
  apply iso_append; [apply Is|unfold isolated in *; now rewrite <- E1, <- E3, <- E4|congruence|congruence].
Qed.
Lemma deep_keeps fuel p q n D D' : lone D -> p < fresh D -> storage_key D p <> None -> q < fresh D -> storage_key D q <> None ->
  make_deep_copy fuel p n D = Ok D' -> lone D' /\ q < fresh D' /\ storage_key D' q <> None.
Proof.
  intros T Hp Hs Hq Hk E. split; [exact (lone_deep fuel p n D D' T Hp Hs E)|].
  pose proof (kept_deep fuel p n D D' (lone_inv D T) Hp E) as K. pose proof (proj1 K) as Hle. split; [lia|].
  apply (kept_stored D); [exact K|lia|now left].
Qed.

Lemma deep_same fuel : forall p n D, lone D -> p < fresh D -> storage_key D p <> None ->
  w_make_deep_copy w fuel p n D = make_deep_copy fuel p n D.
Proof.
  induction fuel as [|fuel IH]; intros p n D T Hp Hs; [reflexivity|]. cbn [w_make_deep_copy make_deep_copy].
  rewrite (children_same (w D) (lk D)); [|intros y; now apply lone_alive].
  generalize (children (lk D) n). generalize fuel at 1 3. revert D T Hp Hs.
  intros D T Hp Hs f. revert D T Hp Hs. induction f as [|f IHf]; intros D T Hp Hs it; [reflexivity|]. cbn [for_children].
  destruct (children_next (lk D) it) as [[c|] it']; [|reflexivity].
  destruct (copy_node c D) as [r| |] eqn:Er; [|reflexivity|reflexivity]. cbn [bind].
  destruct (copied c p D r T Hp Hs Er) as (T1 & H2).
  rewrite (append_same (w (snd r)) (lk (snd r))); [|intros y; now apply lone_alive].
  destruct (append [] p (fst r) (lk (snd r))) as [L'| |]; [|reflexivity|reflexivity]. cbn [bind].
  destruct (H2 L' eq_refl) as (T2 & Hn2 & Sn2 & Hp2 & Sp2).
  destruct (has_children (lk (with_lk L' (snd r))) c).
  - rewrite (IH _ _ _ T2 Hn2 Sn2).
    destruct (make_deep_copy fuel (fst r) c (with_lk L' (snd r))) as [D3| |] eqn:E3; [|reflexivity|reflexivity]. cbn [bind].
    destruct (deep_keeps fuel (fst r) p c _ D3 T2 Hn2 Sn2 Hp2 Sp2 E3) as (T3 & Hp3 & Sp3). exact (IHf D3 T3 Hp3 Sp3 it').
  - cbn [bind]. exact (IHf _ T2 Hp2 Sp2 it').
Qed.

Theorem call_same o D : lone D -> legal o D -> orderly o D -> w_step w o D = step o D.
Proof.
  intros T (Hn & _) (Hst & _). unfold exists_node in Hn.
  assert (HL : forall y, pointed (lk D) y -> w D y = true) by (intros y; now apply lone_alive).
  destruct o; cbn [w_step step handles] in *; try reflexivity.
  - apply remove_same; [exact T|]. apply Hn. now left.
  - unfold w_drain, drain. rewrite drain_same; [reflexivity|exact T|]. intros m Hm. exact (first_lt D _ m (lone_inv D T) Hm).
  - unfold w_copy_node_deep, copy_node_deep. destruct (copy_node n D) as [r| |] eqn:Er; [|reflexivity|reflexivity]. cbn [bind].
    pose proof T as (F & I & _). destruct (copy_node_inv n D F r I Er) as (Hf & I1 & Hlk & Hs & Hr).
    pose proof (kept_copy n D F r I Er) as K1.
    assert (T1 : lone (snd r)).
    { apply (lone_kept D); [exact T| |exact Hlk|exact K1]. destruct (lone_inv D T) as (F2 & I2 & A2).
      destruct (copy_node_inv n D F2 r I2 Er) as (_ & I3 & _). now exists F2. }
    rewrite deep_same; [reflexivity|exact T1|lia|]. apply (kept_stored D); [exact K1|lia|right; lia].
  - unfold on_links. now rewrite (detach_same (w D) (lk D) HL).
  - unfold on_links. now rewrite (append_same (w D) (lk D) HL).
  - unfold on_links. now rewrite (prepend_same (w D) (lk D) HL).
  - unfold on_links. now rewrite (insert_after_same (w D) (lk D) HL).
  - unfold on_links. now rewrite (insert_before_same (w D) (lk D) HL).
Qed.

Theorem dropping_same o D : reachable_orderly D -> legal o D -> orderly o D -> w_step w o D = step o D.
Proof. intros R. apply call_same, orderly_lone, R. Qed.
Theorem dropping_getters D n : reachable_orderly D ->
  w_parent (w D) (lk D) n = parent (lk D) n /\ w_last_child (w D) (lk D) n = last_child (lk D) n /\
  w_previous_sibling (w D) (lk D) n = previous_sibling (lk D) n.
Proof. intros R. apply getters_same. intros y. apply lone_alive; [exact Hw|apply orderly_lone, R]. Qed.
Theorem dropping_reached D : reached_dropping w D <-> reachable_orderly D.
Proof.
  split.
  - induction 1 as [D H|D o D' _ IH Hl Hc Ho H]; [now apply ord_new|]. rewrite (dropping_same o D IH Hl Ho) in H.
    exact (ord_step D o D' IH Hl Hc Ho H).
  - induction 1 as [D H|D o D' R IH Hl Hc Ho H]; [now apply drop_new|]. rewrite <- (dropping_same o D R Hl Ho) in H.
    exact (drop_step w D o D' IH Hl Hc Ho H).
Qed.
Theorem dropping_root D n : reachable_ready D -> top_of (lk D) n (droot D) -> w_root (w D) (lk D) n = Ok (droot D).
Proof.
  intros R Ht. destruct (root_alive D [] n R Ht) as (E & _). unfold w_root, root_of, upgrade in *.
  destruct (l_root (lk D) n) as [r|]; [|now rewrite E]. subst r. rewrite Hw; [reflexivity|now left].
Qed.
End Document.
