(* root() in histories that only insert childless nodes. *)
From Coq Require Import List Bool PeanoNat NArith Lia.
From Verif Require Import Base Ids Links Tree Iter ForestSpec ListFacts TreeProofs ForestFacts IterSpec IterProofs
  PruneFacts Data Attrs Slab SlabProofs NodeApi Doc AttrFacts LinkProofs DocSpec RemoveProofs History InvProofs
  HistoryProofs DrainProofs TidyProofs TreeSpec.
Import ListNotations.

Definition rooted (D : dom) : Prop :=
  l_root (lk D) (droot D) = None /\ parent (lk D) (droot D) = None /\
  forall n p, parent (lk D) n = Some p -> l_root (lk D) n = Some (root_of (lk D) p).

Lemma rooted_shrink D D' : rooted D -> droot D' = droot D ->
  (forall n, l_root (lk D') n = l_root (lk D) n) ->
  (forall n p, parent (lk D') n = Some p -> parent (lk D) n = Some p) -> rooted D'.
Proof.
  intros (H1 & H2 & H3) Hr Hl Hp. split; [|split].
  - now rewrite Hr, Hl.
  - rewrite Hr. destruct (parent (lk D') (droot D)) as [p|] eqn:E; [|easy]. apply Hp in E. congruence.
  - intros n p E. unfold root_of. rewrite !Hl. apply Hp in E. now apply H3.
Qed.

Lemma rooted_insert D L' n q : rooted D -> n <> droot D ->
  (forall m, parent (lk D) m <> Some n) -> q <> Some n ->
  (forall m, parent L' m = if Nat.eqb m n then q else parent (lk D) m) ->
  (forall m, m <> n -> l_root L' m = l_root (lk D) m) ->
  (forall p, q = Some p -> l_root L' n = Some (root_of (lk D) p)) -> rooted (with_lk L' D).
Proof.
  intros (H1 & H2 & H3) Hr Hleaf Hqn Hp Hl Hn. split; [|split]; cbn [with_lk lk droot].
  - rewrite Hl; [easy|congruence].
  - rewrite Hp. destruct (Nat.eqb_spec (droot D) n); congruence.
  - intros m p E. rewrite Hp in E. unfold root_of. destruct (Nat.eqb_spec m n) as [->|Hm].
    + rewrite (Hn p E), (Hl p); [easy|congruence].
    + rewrite (Hl m Hm), (Hl p); [now apply H3|]. intros ->. now apply Hleaf in E.
Qed.

Lemma leaf_parent L F n : Rep L F -> first_child L n = None -> forall m, parent L m <> Some n.
Proof.
  intros R H m E. unfold first_child in H. rewrite (r_first _ _ R) in H. apply hd_error_none in H.
  unfold parent in E. rewrite (r_parent _ _ R) in E. pose proof (r_wf _ _ R) as W.
  pose proof (wf_self F W m) as Hs. rewrite (wf_parent F W m n E), H in Hs. easy.
Qed.

Lemma rooted_append D F p n L' : InvF D F -> rooted D -> first_child (lk D) n = None -> n <> droot D ->
  append [] p n (lk D) = Ok L' -> rooted (with_lk L' D).
Proof.
  intros I H Hf Hn E. pose proof (append_refines [] p n (lk D) F (iv_rep D F I)) as Hr.
  destruct (Nat.eqb_spec p n) as [|Hpn]; [congruence|]. destruct (append_conflict _ _ _ _); [congruence|].
  destruct Hr as (L1 & E1 & R1 & Hl). rewrite E in E1. injection E1 as <-.
  pose proof (iv_rep D F I) as R. apply (rooted_insert D L' n (Some p)); auto.
  - now apply (leaf_parent (lk D) F).
  - congruence.
  - intros m. unfold parent. rewrite (r_parent _ _ R1), (r_parent _ _ R). apply parent_append, R.
  - intros m Hm. rewrite Hl. destruct (Nat.eqb_spec m n); easy.
  - intros q Eq. injection Eq as <-. now rewrite Hl, Nat.eqb_refl.
Qed.
Lemma rooted_prepend D F p n L' : InvF D F -> rooted D -> first_child (lk D) n = None -> n <> droot D ->
  prepend [] p n (lk D) = Ok L' -> rooted (with_lk L' D).
Proof.
  intros I H Hf Hn E. pose proof (prepend_refines [] p n (lk D) F (iv_rep D F I)) as Hr.
  destruct (Nat.eqb_spec p n) as [|Hpn]; [congruence|]. destruct (prepend_conflict _ _ _ _); [congruence|].
  destruct Hr as (L1 & E1 & R1 & Hl). rewrite E in E1. injection E1 as <-.
  pose proof (iv_rep D F I) as R. apply (rooted_insert D L' n (Some p)); auto.
  - now apply (leaf_parent (lk D) F).
  - congruence.
  - intros m. unfold parent. rewrite (r_parent _ _ R1), (r_parent _ _ R). apply parent_prepend, R.
  - intros m Hm. rewrite Hl. destruct (Nat.eqb_spec m n); easy.
  - intros q Eq. injection Eq as <-. now rewrite Hl, Nat.eqb_refl.
Qed.
Lemma rooted_insert_after D F a n L' : InvF D F -> rooted D -> first_child (lk D) n = None -> n <> droot D ->
  insert_after [] a n (lk D) = Ok L' -> rooted (with_lk L' D).
Proof.
  intros I H Hf Hn E. pose proof (insert_after_refines [] a n (lk D) F (iv_rep D F I)) as Hr.
  destruct (Nat.eqb_spec a n) as [|Hpn]; [congruence|]. destruct (insert_after_conflict _ _ _ _); [congruence|].
  destruct Hr as (L1 & E1 & R1 & Hl). rewrite E in E1. injection E1 as <-.
  pose proof (iv_rep D F I) as R. apply (rooted_insert D L' n (parent_of F a)); auto.
  - now apply (leaf_parent (lk D) F).
  - pose proof (leaf_parent (lk D) F n R Hf a) as Hx. unfold parent in Hx. now rewrite (r_parent _ _ R) in Hx.
  - intros m. unfold parent. rewrite (r_parent _ _ R1), (r_parent _ _ R). now apply parent_insert_after; [apply R|].
  - intros m Hm. rewrite Hl. destruct (Nat.eqb_spec m n); easy.
  - intros q Eq. rewrite Hl, Nat.eqb_refl. apply H. unfold parent. now rewrite (r_parent _ _ R).
Qed.
Lemma rooted_insert_before D F a n L' : InvF D F -> rooted D -> first_child (lk D) n = None -> n <> droot D ->
  insert_before [] a n (lk D) = Ok L' -> rooted (with_lk L' D).
Proof.
  intros I H Hf Hn E. pose proof (insert_before_refines [] a n (lk D) F (iv_rep D F I)) as Hr.
  destruct (Nat.eqb_spec a n) as [|Hpn]; [congruence|]. destruct (insert_before_conflict _ _ _ _); [congruence|].
  destruct Hr as (L1 & E1 & R1 & Hl). rewrite E in E1. injection E1 as <-.
  pose proof (iv_rep D F I) as R. apply (rooted_insert D L' n (parent_of F a)); auto.
  - now apply (leaf_parent (lk D) F).
  - pose proof (leaf_parent (lk D) F n R Hf a) as Hx. unfold parent in Hx. now rewrite (r_parent _ _ R) in Hx.
  - intros m. unfold parent. rewrite (r_parent _ _ R1), (r_parent _ _ R). now apply parent_insert_before; [apply R|].
  - intros m Hm. rewrite Hl. destruct (Nat.eqb_spec m n); easy.
  - intros q Eq. rewrite Hl, Nat.eqb_refl. apply H. unfold parent. now rewrite (r_parent _ _ R).
Qed.

Lemma rooted_same D D' : rooted D -> lk D' = lk D -> droot D' = droot D -> rooted D'.
Proof. intros H El Er. apply (rooted_shrink D D' H Er); now rewrite El. Qed.

Lemma rooted_remove D n D' : Inv True D -> rooted D -> n < fresh D -> remove_node n D = Ok D' ->
  Inv True D' /\ rooted D' /\ fresh D' = fresh D.
Proof.
  intros (F & I & HA) T Hn H. destruct (tree_exists F n) as (t & Et & Ht); [apply I|now apply HA|].
  destruct (remove_node_spec D F t I Ht) as (D1 & E & I1 & R); [now rewrite Et|].
  rewrite Et, H in E. injection E as <-. split; [exists (f_prune (preorder t) F); split; [easy|]; intros; now apply acyclic_prune, HA|].
  split; [|apply R]. apply (rooted_shrink D D' T); [apply R|apply R|].
  intros m p. unfold parent. rewrite (r_parent _ _ (iv_rep _ _ I1)), (r_parent _ _ (iv_rep _ _ I)). cbn.
  now destruct (mem m (preorder t)).
Qed.

Lemma rooted_drain f fuel : forall n s s', Inv True (fst s) -> rooted (fst s) -> (forall m, n = Some m -> m < fresh (fst s)) ->
  drain_loop fuel f n s = Ok s' -> Inv True (fst s') /\ rooted (fst s') /\ fresh (fst s') = fresh (fst s).
Proof.
  induction fuel as [|fuel IH]; intros n [D k] s' I T Hn H; [easy|]. cbn [drain_loop fst snd] in H, I, T, Hn.
  destruct n as [n|]; [|injection H as <-; easy]. specialize (Hn n eq_refl).
  destruct (f D n).
  - ok_bind H D1 E. destruct (rooted_remove D n D1 I T Hn E) as (I1 & T1 & F1).
    apply (IH (next_sibling (lk D) n) (D1, S k) s' I1 T1) in H.
    2:{ cbn [fst]. intros m Hm. rewrite F1. now apply (next_lt D n m). }
    destruct H as (I2 & T2 & F2). cbn [fst] in *. split; [easy|]. split; [easy|congruence].
  - ok_bind H s1 E.
    assert (H1 : Inv True (fst s1) /\ rooted (fst s1) /\ fresh (fst s1) = fresh D).
    { destruct (has_children (lk D) n).
      - apply (IH _ (D, k) _ I T) in E; [easy|]. intros m Hm. exact (first_lt D _ m I Hm).
      - injection E as <-. easy. }
    destruct H1 as (I1 & T1 & F1). apply (IH _ s1 s' I1 T1) in H.
    2:{ intros m Hm. apply (next_lt (fst s1) n m I1); [lia|easy]. }
    destruct H as (I2 & T2 & F2). cbn. split; [easy|]. split; [easy|congruence].
Qed.

Lemma rooted_deep fuel : forall p n D D', Inv True D -> rooted D -> p < fresh D -> make_deep_copy fuel p n D = Ok D' ->
  rooted D'.
Proof.
  induction fuel as [|fuel IH]; intros p n D D' I T Hp H; [easy|]. cbn [make_deep_copy] in H.
  assert (HH : Inv True D' /\ rooted D' /\ fresh D <= fresh D'); [|tauto].
  eapply (for_children_inv lk (fun X => Inv True X /\ rooted X /\ fresh D <= fresh X)); [|split;[exact I|split;[exact T|apply le_n]]|exact H].
  intros c s s' ((F & Is & HA) & Ts & Hle) Hb. cbv beta in Hb.
  ok_bind Hb r E. destruct (copy_node_inv c s F r Is E) as (Hn & I1 & Hl & Hf & Hr).
  pose proof (rooted_same s (snd r) Ts Hl Hr) as T1.
  ok_bind Hb L' E2.
  assert (I2 : InvF (with_lk L' (snd r)) (f_append p (fst r) F)).
  { apply append_inv; [easy|lia|lia|easy]. }
  assert (HA2 : True -> acyclic (f_append p (fst r) F)).
  { intros a. apply acyclic_append; [apply Is|auto|]. intros Hanc.
    apply iso_anc in Hanc; [|apply Is|apply (iv_iso s F Is); lia]. lia. }
  assert (I3 : Inv True (with_lk L' (snd r))) by now exists (f_append p (fst r) F).
  assert (T2 : rooted (with_lk L' (snd r))).
  { apply (rooted_append (snd r) F p (fst r) L' I1 T1); [| |easy].
    - unfold first_child. rewrite (r_first _ _ (iv_rep _ _ I1)).
      destruct (iv_iso s F Is (fst r)) as (_ & _ & ->); [lia|easy].
    - pose proof (iv_rlt s F Is). lia. }
  destruct (has_children _ c).
  - assert (Hlt : fst r < fresh (with_lk L' (snd r))) by (cbn; lia).
    pose proof (deep_copy_inv True _ _ _ _ _ I3 Hlt Hb) as (I4 & Hle4 & _). cbn in Hle4.
    apply IH in Hb; [|easy|exact T2|cbn; lia]. split; [easy|]. split; [easy|lia].
  - injection Hb as <-. split; [easy|]. split; [exact T2|cbn; lia].
Qed.

Lemma leafy_no_cycle o D D' F : InvF D F -> leafy o D -> step o D = Ok D' -> no_cycle_made o D.
Proof.
  intros I Hl H.
  assert (Hx : forall p n, first_child (lk D) n = None -> p <> n -> ~ above (lk D) n p).
  { intros p n Hf Hpn Ha. assert (Hc : exists c, parent (lk D) c = Some n).
    { clear Hf. induction Ha as [|a m q Hq Ha IH]; [easy|]. destruct (Nat.eq_dec q a) as [->|]; eauto. }
    destruct Hc as (c & Hc). exact (leaf_parent (lk D) F n (iv_rep D F I) Hf c Hc). }
  destruct o; cbn [no_cycle_made]; try easy; cbn [leafy] in Hl; destruct Hl as (Hf & _);
    cbn [step] in H; unfold on_links in H; ok_bind H L' E; apply Hx; try easy; intros ->.
  - unfold append in E. now rewrite Nat.eqb_refl in E.
  - unfold prepend in E. now rewrite Nat.eqb_refl in E.
  - unfold insert_after in E. now rewrite Nat.eqb_refl in E.
  - unfold insert_before in E. now rewrite Nat.eqb_refl in E.
Qed.

Lemma leafy_tame D : reachable_leafy D -> reachable_tame D.
Proof.
  induction 1 as [D H|D o D' H IH Hl Hf Hs]; [now apply tame_new|].
  destruct (tame_inv D IH) as (F & I & _). eapply tame_step; eauto. now apply (leafy_no_cycle o D D' F).
Qed.

Theorem step_rooted o D D' : Inv True D -> rooted D -> legal o D -> leafy o D -> step o D = Ok D' -> rooted D'.
Proof.
  intros I T Hl Hle H. pose proof I as (F & IF & HA).
  destruct Hl as (Hn & Hp). unfold exists_node in Hn.
  destruct o; cbn [step handles leafy] in *.
  - ok_bind H r E. injection H as <-. apply (create_element_inv D F) in E; [|easy].
    apply (rooted_same D); tauto.
  - ok_bind H r E. injection H as <-. apply (create_node_inv D F) in E; [|easy].
    apply (rooted_same D); tauto.
  - apply (rooted_remove D n D' I T); [apply Hn; now left|easy].
  - ok_bind H r E. injection H as <-. unfold drain in E. apply (rooted_drain f _ _ (D, 0) r I T) in E; [easy|].
    intros m Hm. exact (first_lt D _ m I Hm).
  - ok_bind H r E. injection H as <-. apply (copy_node_inv n D F) in E; [|easy]. apply (rooted_same D); tauto.
  - ok_bind H r E. injection H as <-. unfold copy_node_deep in E. ok_bind E r1 E1. ok_bind E D2 E2.
    injection E as <-. cbn [snd]. destruct (copy_node_inv n D F r1 IF E1) as (Hf & I1 & Hlk & Hs & Hr).
    assert (I1' : Inv True (snd r1)) by now exists F.
    assert (Hlt : fst r1 < fresh (snd r1)) by lia.
    exact (rooted_deep _ _ _ _ _ I1' (rooted_same D (snd r1) T Hlk Hr) Hlt E2).
  - unfold on_links in H. ok_bind H L' E. injection H as <-.
    pose proof (detach_refines [] n (lk D) F (iv_rep D F IF)) as Hr. destruct (_ || _); [congruence|].
    destruct Hr as (L1 & E1 & R1 & Hl1). rewrite E in E1. injection E1 as <-.
    apply (rooted_shrink D); auto. intros m p. cbn [with_lk lk]. unfold parent.
    rewrite (r_parent _ _ R1), (r_parent _ _ (iv_rep D F IF)). cbn. now destruct (Nat.eqb m n).
  - unfold on_links in H. ok_bind H L' E. injection H as <-. now apply (rooted_append D F p n); try tauto.
  - unfold on_links in H. ok_bind H L' E. injection H as <-. now apply (rooted_prepend D F p n); try tauto.
  - unfold on_links in H. ok_bind H L' E. injection H as <-. now apply (rooted_insert_after D F a n); try tauto.
  - unfold on_links in H. ok_bind H L' E. injection H as <-. now apply (rooted_insert_before D F a n); try tauto.
  - unfold set_text in H. destruct (is_element D n); [easy|]. injection H as <-. now apply (rooted_same D).
  - injection H as <-. now apply (rooted_same D).
  - unfold set_id in H. destruct (is_element D n); [|easy]. injection H as <-. now apply (rooted_same D).
  - unfold set_tag_name in H. destruct (is_element D n); [|easy]. cbn in H.
    destruct (empty_tag t); [easy|]. injection H as <-. now apply (rooted_same D).
  - apply (set_attribute_inv D F) in H; [|easy]. destruct H as (_ & []). now apply (rooted_same D).
  - ok_bind H r E. injection H as <-. apply (set_checked_inv D F) in E; [|easy]. destruct E as (_ & []).
    now apply (rooted_same D).
  - unfold set_attribute_if_none in H. destruct (negb _).
    + apply (set_attribute_inv D F) in H; [|easy]. destruct H as (_ & []). now apply (rooted_same D).
    + now injection H as <-.
  - destruct (remove_attribute_inv D F n name IF) as (D1 & E & I1 & Hf). rewrite E in H. injection H as <-.
    destruct Hf. now apply (rooted_same D).
  - injection H as <-. now apply (rooted_same D).
Qed.

Theorem leafy_rooted D : reachable_leafy D -> rooted D.
Proof.
  intros H. induction H as [D H|D o D' H IH Hl Ho Hs].
  - unfold new_document, alloc in H. cbn in H. injection H as <-. split; [easy|]. split; easy.
  - apply (step_rooted o D D'); try easy. now apply tame_inv, leafy_tame.
Qed.

Theorem leafy_root D n : reachable_leafy D -> top_of (lk D) n (droot D) -> root_of (lk D) n = droot D.
Proof.
  intros H Ht. destruct (leafy_rooted D H) as (H1 & H2 & H3). remember (droot D) as r eqn:Er.
  induction Ht as [n Hn|n p t Hp Ht IH].
  - unfold root_of. now rewrite H1.
  - unfold root_of. rewrite (H3 n p Hp). now apply IH.
Qed.
