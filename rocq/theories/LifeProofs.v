(* Orderly histories: removed nodes stand alone, so that nothing that is needed is freed. *)
From Coq Require Import List Bool PeanoNat NArith Lia.
From Verif Require Import Base Ids Links Tree Iter ForestSpec ListFacts TreeProofs ForestFacts IterSpec IterProofs
  PruneFacts Data Attrs Slab SlabProofs NodeApi Doc AttrFacts LinkProofs DocSpec RemoveProofs History InvProofs
  HistoryProofs DrainProofs TidyProofs RootProofs RootSpec RootExact TreeSpec TreeApi ApiProofs DocApi LifeSpec.
Import ListNotations.

Definition lone (D : dom) : Prop := exists F, InvF D F /\ acyclic F /\
  forall n, storage_key D n = None -> isolated F n.

Lemma lone_inv D : lone D -> Inv True D.
Proof. intros (F & I & A & _). now exists F. Qed.

(* data changes and new nodes *)
Lemma lone_kept D D' : lone D -> Inv True D' -> lk D' = lk D -> keys_kept D D' -> lone D'.
Proof.
  intros (F & I & A & HL) (F' & I' & A') El (_ & Hk). exists F'. split; [easy|]. split; [now apply A'|].
  intros n Hn. destruct (Nat.lt_ge_cases n (fresh D')) as [Hlt|Hge]; [|now apply (iv_iso D' F' I')].
  apply Hk in Hn; [|easy]. destruct Hn as (_ & Hn). apply HL in Hn. destruct Hn as (J1 & J2 & J3).
  pose proof (iv_rep D F I) as R. pose proof (iv_rep D' F' I') as R'. rewrite El in R'.
  apply shows_Rep in R, R'. destruct (forest_eq_shows _ _ _ R R') as (E1 & E2 & E3).
  unfold isolated. now rewrite <- E1, <- E2, <- E3.
Qed.

(* moves of nodes of the document *)
Lemma lone_move D L' F' : lone D -> InvF (with_lk L' D) F' -> acyclic F' ->
  (forall F, InvF D F -> forall m, isolated F m -> storage_key D m = None -> isolated F' m) -> lone (with_lk L' D).
Proof.
  intros (F & I & A & HL) I' A' Hm. exists F'. split; [easy|]. split; [easy|].
  intros n Hn. apply (Hm F I); [now apply HL|easy].
Qed.

Lemma lone_remove D n D' : lone D -> n < fresh D -> remove_node n D = Ok D' -> lone D' /\ fresh D' = fresh D.
Proof.
  intros (F & I & A & HL) Hn H. destruct (tree_exists F n) as (t & Et & Ht); [apply I|easy|].
  destruct (remove_node_spec D F t I Ht) as (D1 & E & I1 & R); [now rewrite Et|].
  pose proof (acyclic_prune (preorder t) F A) as A1.
  rewrite Et, H in E. injection E as <-. split; [|apply R].
  exists (f_prune (preorder t) F). split; [easy|]. split; [easy|]. intros m Hm. rewrite (rv_key _ _ _ R) in Hm.
  destruct (mem m (preorder t)) eqn:Em.
  - unfold isolated. cbn. now rewrite Em.
  - apply iso_prune. now apply HL.
Qed.

Lemma lone_drain f fuel : forall n s s', lone (fst s) -> (forall m, n = Some m -> m < fresh (fst s)) ->
  drain_loop fuel f n s = Ok s' -> lone (fst s') /\ fresh (fst s') = fresh (fst s).
Proof.
  induction fuel as [|fuel IH]; intros n [D k] s' T Hn H; [easy|]. cbn [drain_loop fst snd] in H, T, Hn.
  destruct n as [n|]; [|injection H as <-; easy]. specialize (Hn n eq_refl). pose proof (lone_inv D T) as I.
  destruct (f D n).
  - ok_bind H D1 E. destruct (lone_remove D n D1 T Hn E) as (T1 & F1).
    apply (IH (next_sibling (lk D) n) (D1, S k) s' T1) in H.
    2:{ cbn [fst]. intros m Hm. rewrite F1. now apply (next_lt D n m). }
    destruct H as (T2 & F2). cbn [fst] in *. split; [easy|congruence].
  - ok_bind H s1 E.
    assert (H1 : lone (fst s1) /\ fresh (fst s1) = fresh D).
    { destruct (has_children (lk D) n).
      - apply (IH _ (D, k) _ T) in E; [easy|]. intros m Hm. exact (first_lt D _ m I Hm).
      - injection E as <-. easy. }
    destruct H1 as (T1 & F1). apply (IH _ s1 s' T1) in H.
    2:{ intros m Hm. apply (next_lt (fst s1) n m (lone_inv _ T1)); [lia|easy]. }
    destruct H as (T2 & F2). cbn. split; [easy|congruence].
Qed.

Lemma kept_stored D D' n : keys_kept D D' -> n < fresh D' -> storage_key D n <> None \/ fresh D <= n -> storage_key D' n <> None.
Proof. intros (_ & Hk) Hn Ho He. apply Hk in He; [|easy]. destruct He as (H1 & H2). destruct Ho; [easy|lia]. Qed.

Lemma lone_deep fuel : forall p n D D', lone D -> p < fresh D -> storage_key D p <> None ->
  make_deep_copy fuel p n D = Ok D' -> lone D'.
Proof.
  induction fuel as [|fuel IH]; intros p n D D' T Hp Hs H; [easy|]. cbn [make_deep_copy] in H.
  assert (HH : lone D' /\ keys_kept D D'); [|tauto].
  eapply (for_children_inv lk (fun X => lone X /\ keys_kept D X)); [|split;[exact T|now apply kept_refl]|exact H].
  intros c s s' (Ts & Ks) Hb. cbv beta in Hb. destruct (lone_inv s Ts) as (F & Is & HA). pose proof (proj1 Ks) as Hle.
  ok_bind Hb r E. destruct (copy_node_inv c s F r Is E) as (Hn & I1 & Hl & Hf & Hr).
  pose proof (kept_copy c s F r Is E) as K1.
  assert (T1 : lone (snd r)) by (apply (lone_kept s); [easy|now exists F|easy|easy]).
  ok_bind Hb L' E2.
  assert (I2 : InvF (with_lk L' (snd r)) (f_append p (fst r) F)).
  { apply append_inv; [easy|lia|lia|easy]. }
  assert (HA2 : acyclic (f_append p (fst r) F)).
  { apply acyclic_append; [apply Is|auto|]. intros Hanc.
    apply iso_anc in Hanc; [|apply Is|apply (iv_iso s F Is); lia]. lia. }
  assert (Sp : storage_key (snd r) p <> None).
  { apply (kept_stored D); [now apply (kept_trans D s)|lia|now left]. }
  assert (Sn : storage_key (snd r) (fst r) <> None).
  { apply (kept_stored s); [easy|lia|right; lia]. }
  assert (T2 : lone (with_lk L' (snd r))).
  { apply (lone_move (snd r) L' (f_append p (fst r) F)); [easy|easy|easy|].
    intros F2 I2' m Hm Hk. pose proof (iv_rep _ _ I1) as R1. pose proof (iv_rep _ _ I2') as R2.
    apply shows_Rep in R1, R2. destruct (forest_eq_shows _ _ _ R2 R1) as (E1 & E3 & E4).
    apply iso_append; [apply Is|unfold isolated in *; now rewrite <- E1, <- E3, <- E4|congruence|congruence]. }
  assert (K2 : keys_kept D (with_lk L' (snd r))).
  { eapply kept_trans; [exact Ks|]. eapply kept_trans; [exact K1|]. now apply kept_refl. }
  destruct (has_children _ c).
  - assert (Hlt : fst r < fresh (with_lk L' (snd r))) by (cbn; lia).
    split; [now apply (IH _ _ _ _ T2 Hlt Sn Hb)|].
    eapply kept_trans; [exact K2|]. exact (kept_deep _ _ _ _ _ (lone_inv _ T2) Hlt Hb).
  - injection Hb as <-. split; [easy|exact K2].
Qed.

Theorem step_lone o D D' : lone D -> legal o D -> no_cycle_made o D -> orderly o D -> step o D = Ok D' -> lone D'.
Proof.
  intros T Hl Hc (Hst & Hsv) H. pose proof (lone_inv D T) as I.
  assert (I' : Inv True D') by now apply (step_inv True o D D').
  pose proof (fun Ho => step_keys o D D' I H Ho) as Hk.
  destruct Hl as (Hn & _). unfold exists_node in Hn.
  assert (Huniq : forall F F2, InvF D F -> InvF D F2 -> forall m, isolated F m -> isolated F2 m).
  { intros F F2 J1 J2 m. pose proof (iv_rep _ _ J1) as R1. pose proof (iv_rep _ _ J2) as R2. apply shows_Rep in R1, R2.
    destruct (forest_eq_shows _ _ _ R1 R2) as (E1 & E3 & E4). unfold isolated. now rewrite E1, E3, E4. }
  pose proof T as (F & IF & HA & _). pose proof (r_wf _ _ (iv_rep D F IF)) as W.
  assert (Hanc : forall a n, ~ above (lk D) a n -> ~ anc_or_self F a n).
  { intros a n Ha Hb. apply Ha. now apply (above_anc _ F), Hb; apply IF. }
  destruct o; cbn [step handles no_cycle_made] in *.
  - ok_bind H r E. injection H as <-. apply (lone_kept D); [easy|easy| |now apply Hk].
    apply (create_element_inv D F) in E; tauto.
  - ok_bind H r E. injection H as <-. apply (lone_kept D); [easy|easy| |now apply Hk].
    apply (create_node_inv D F) in E; tauto.
  - apply (lone_remove D n D' T); [apply Hn; now left|easy].
  - ok_bind H r E. injection H as <-. unfold drain in E. apply (lone_drain f _ _ (D, 0) r T) in E; [easy|].
    intros m Hm. exact (first_lt D _ m I Hm).
  - ok_bind H r E. injection H as <-. apply (lone_kept D); [easy|easy| |now apply Hk].
    apply (copy_node_inv n D F) in E; tauto.
  - ok_bind H r E. injection H as <-. unfold copy_node_deep in E. ok_bind E r1 E1. ok_bind E D2 E2.
    injection E as <-. cbn [snd]. destruct (copy_node_inv n D F r1 IF E1) as (Hf & I1 & Hlk & Hs & Hr).
    assert (I1' : Inv True (snd r1)) by now exists F.
    assert (Hlt : fst r1 < fresh (snd r1)) by lia. pose proof (kept_copy n D F r1 IF E1) as K1.
    apply (lone_deep (enough D) (fst r1) n (snd r1) D2); [now apply (lone_kept D)|easy| |easy].
    apply (kept_stored D); [easy|easy|right; lia].
  - unfold on_links in H. ok_bind H L' E. injection H as <-.
    apply (lone_move D L' (f_detach n F)); [easy|now apply detach_inv|now apply acyclic_detach|].
    intros F2 J m Hm _. apply iso_detach. now apply (Huniq F2 F).
  - unfold on_links in H. ok_bind H L' E. injection H as <-.
    assert (Kp : storage_key D p <> None) by (apply Hst; now left).
    assert (Kn : storage_key D n <> None) by (apply Hst; now right; left).
    apply (lone_move D L' (f_append p n F)); [easy|apply append_inv; auto with datatypes|apply acyclic_append; auto|].
    intros F2 J m Hm Hkm. apply iso_append; [easy|now apply (Huniq F2 F)|congruence|congruence].
  - unfold on_links in H. ok_bind H L' E. injection H as <-.
    assert (Kp : storage_key D p <> None) by (apply Hst; now left).
    assert (Kn : storage_key D n <> None) by (apply Hst; now right; left).
    apply (lone_move D L' (f_prepend p n F)); [easy|apply prepend_inv; auto with datatypes|apply acyclic_prepend; auto|].
    intros F2 J m Hm Hkm. apply iso_prepend; [easy|now apply (Huniq F2 F)|congruence|congruence].
  - unfold on_links in H. ok_bind H L' E. injection H as <-.
    assert (Kp : storage_key D a <> None) by (apply Hst; now left).
    assert (Kn : storage_key D n <> None) by (apply Hst; now right; left).
    destruct (insert_after_inv D F a n L' IF) as (Han & I2); auto with datatypes.
    apply (lone_move D L' (f_insert_after a n F)); [easy|easy|apply acyclic_insert_after; auto|].
    intros F2 J m Hm Hkm. apply iso_insert_after; [easy|now apply (Huniq F2 F)|congruence|congruence|easy].
  - unfold on_links in H. ok_bind H L' E. injection H as <-.
    assert (Kp : storage_key D a <> None) by (apply Hst; now left).
    assert (Kn : storage_key D n <> None) by (apply Hst; now right; left).
    destruct (insert_before_inv D F a n L' IF) as (Han & I2); auto with datatypes.
    apply (lone_move D L' (f_insert_before a n F)); [easy|easy|apply acyclic_insert_before; auto|].
    intros F2 J m Hm Hkm. apply iso_insert_before; [easy|now apply (Huniq F2 F)|congruence|congruence|easy].
  - unfold set_text in H. destruct (is_element D n); [easy|]. injection H as <-. apply (lone_kept D); auto.
  - injection H as <-. apply (lone_kept D); auto.
  - unfold set_id in H. destruct (is_element D n); [|easy]. injection H as <-. apply (lone_kept D); auto.
  - unfold set_tag_name in H. destruct (is_element D n); [|easy]. cbn in H.
    destruct (empty_tag t); [easy|]. injection H as <-. apply (lone_kept D); auto.
  - apply (lone_kept D); auto. apply (set_attribute_inv D F) in H; [|easy]. destruct H as (_ & []). easy.
  - apply (lone_kept D); auto. ok_bind H r E. injection H as <-. apply (set_checked_inv D F) in E; [|easy].
    destruct E as (_ & []). easy.
  - apply (lone_kept D); auto. unfold set_attribute_if_none in H. destruct (negb _); [|now injection H as <-].
    apply (set_attribute_inv D F) in H; [|easy]. destruct H as (_ & []). easy.
  - apply (lone_kept D); auto. destruct (remove_attribute_inv D F n name IF) as (D1 & E & I1 & Hf). rewrite E in H.
    injection H as <-. apply Hf.
  - injection H as <-. apply (lone_kept D); auto.
Qed.

Theorem orderly_lone D : reachable_orderly D -> lone D.
Proof.
  induction 1 as [D H|D o D' H IH Hl Hc Ho Hs].
  - destruct new_document_inv as (D0 & E & I & Hf & Hr & Hk). rewrite E in H. injection H as <-.
    exists empty_forest. split; [easy|]. split; [|easy]. exists (fun _ => 0), 0. split; easy.
  - now apply (step_lone o D D').
Qed.

(* ---- the answers of the getters *)
Lemma isolated_none D F n : InvF D F -> isolated F n -> parent (lk D) n = None /\ first_child (lk D) n = None /\
  last_child (lk D) n = None /\ next_sibling (lk D) n = None /\ previous_sibling (lk D) n = None.
Proof.
  intros I (J1 & J2 & J3). pose proof (iv_rep D F I) as R.
  unfold parent, first_child, last_child, next_sibling, previous_sibling.
  rewrite (r_parent _ _ R), (r_first _ _ R), (r_last _ _ R), (r_next _ _ R), (r_prev _ _ R), J1, J2, J3.
  unfold pred_in. cbn. now rewrite Nat.eqb_refl.
Qed.

Lemma stored_attached D n : storage_key D n <> None <-> is_detached D n = false.
Proof. unfold is_detached. destruct (storage_key D n); easy. Qed.

Lemma owned_iff D F n : InvF D F -> In n (slab_iter (store D)) <-> storage_key D n <> None.
Proof.
  intros I. rewrite in_slab_iter. pose proof (iv_slab D F I) as S. split.
  - intros (k & Hk). apply (so_bwd _ _ S) in Hk. congruence.
  - intros H. destruct (storage_key D n) as [k|] eqn:E; [|easy]. exists k. now apply (so_fwd _ _ S).
Qed.

Lemma linked_iff D a b : LInv D -> In a (linked_nodes D b) <-> exists x, In x (attributes D a) /\ link_target (a_value x) = Some b.
Proof.
  intros I. rewrite <- count_links_pos, <- (li_sym D I). apply (count_occ_In Nat.eq_dec).
Qed.

Lemma shared_sibling D F n m : InvF D F -> In m (siblings_of F n) -> m <> n -> ~ isolated F m /\ ~ isolated F n.
Proof.
  intros I Hm Hne. pose proof (r_wf _ _ (iv_rep D F I)) as W. split; intros (_ & J & _).
  - destruct (wf_share F W n m Hm) as (E & _). rewrite J in E. pose proof (wf_self F W n) as Hs. rewrite <- E in Hs.
    destruct Hs as [->|[]]. easy.
  - rewrite J in Hm. destruct Hm as [->|[]]. easy.
Qed.

Theorem orderly_neighbours D n m : reachable_orderly D -> neighbour D n m ->
  is_detached D n = false /\ is_detached D m = false.
Proof.
  intros H Hm. pose proof (orderly_lone D H) as (F & I & A & HL). pose proof (orderly_tidy D H) as T.
  pose proof (iv_rep D F I) as R. pose proof (r_wf _ _ R) as W. rewrite <- !stored_attached.
  assert (Hp : forall c p, parent_of F c = Some p -> ~ isolated F c /\ ~ isolated F p).
  { intros c p Hc. split; [intros (J & _); congruence|]. intros (_ & _ & J).
    pose proof (wf_self F W c) as Hs. rewrite (wf_parent F W c p Hc), J in Hs. easy. }
  assert (Hk : forall x, ~ isolated F x -> storage_key D x <> None) by (intros x Hx E; now apply Hx, HL).
  assert (Hboth : forall x y, ~ isolated F x /\ ~ isolated F y -> storage_key D x <> None /\ storage_key D y <> None).
  { intros x y (H1 & H2). auto. }
  destruct Hm as [E|[E|[E|[E|[E|[(a & Ha & E)|E]]]]]].
  - unfold parent in E. rewrite (r_parent _ _ R) in E. apply Hboth, Hp, E.
  - unfold first_child in E. rewrite (r_first _ _ R) in E. apply and_comm, Hboth, Hp. apply (wf_child F W).
    destruct (children_of F n); [easy|]. injection E as ->. now left.
  - unfold last_child in E. rewrite (r_last _ _ R) in E. apply and_comm, Hboth, Hp. apply (wf_child F W).
    unfold last_error in E. apply in_rev. destruct (rev (children_of F n)); [easy|]. injection E as ->. now left.
  - unfold next_sibling in E. rewrite (r_next _ _ R) in E. destruct (succ_in_In _ _ _ E) as (H1 & H2).
    assert (Hne : m <> n) by (apply (succ_in_neq n (siblings_of F n)); [apply W|easy]).
    apply and_comm, Hboth. now apply (shared_sibling D F).
  - unfold previous_sibling in E. rewrite (r_prev _ _ R) in E. unfold pred_in in E.
    destruct (succ_in_In _ _ _ E) as (H1 & H2). apply in_rev in H2.
    assert (Hne : m <> n).
    { apply (succ_in_neq n (rev (siblings_of F n))); [apply NoDup_rev, W|easy]. }
    apply and_comm, Hboth. now apply (shared_sibling D F).
  - now destruct (T n a m Ha E).
  - apply (linked_iff D _ _ (iv_link D F I)) in E. destruct E as (a & Ha & E). now destruct (T m a n Ha E).
Qed.

Lemma owned_not_freed D H n : owned D n -> ~ freed D H n.
Proof. intros Ho Hf. now destruct Hf. Qed.
Lemma attached_owned D n : reachable D -> is_detached D n = false -> owned D n.
Proof.
  intros H Hn. destruct (reachable_inv D H) as (F & I & _). right. apply (owned_iff D F n I). now apply stored_attached.
Qed.

Theorem orderly_alive D n m H : reachable_orderly D -> neighbour D n m -> ~ freed D H m.
Proof.
  intros Ho Hm. apply owned_not_freed, attached_owned; [apply tame_reachable, orderly_tame, Ho|].
  now apply (orderly_neighbours D n m).
Qed.

(* root() of a node of the document *)
Theorem root_alive D H n : reachable_ready D -> top_of (lk D) n (droot D) ->
  root_of (lk D) n = droot D /\ ~ freed D H (root_of (lk D) n).
Proof.
  intros Hl Hn. pose proof (ready_root D n Hl Hn) as E. split; [easy|]. rewrite E. apply owned_not_freed. now left.
Qed.

(* removed nodes are freed *)
Theorem orderly_freed D H n : reachable_orderly D -> n <> droot D ->
  (freed D H n <-> is_detached D n = true /\ ~ In n H).
Proof.
  intros Ho Hr. pose proof (tame_reachable D (orderly_tame D Ho)) as Rc. destruct (reachable_inv D Rc) as (F & I & _). split.
  - intros Hf. destruct Hf as [n Hn Hh _]. split; [|easy]. destruct (is_detached D n) eqn:E; [easy|].
    exfalso. now apply Hn, attached_owned.
  - intros (Hd & Hh). constructor; [|easy|].
    + intros [E|E]; [easy|]. apply (owned_iff D F n I), stored_attached in E. congruence.
    + intros m Hm. exfalso. assert (Hx : neighbour D m n).
      { destruct Hm as [E|[E|[E|E]]]; unfold neighbour; auto 10. }
      apply (orderly_neighbours D m n Ho) in Hx. destruct Hx. congruence.
Qed.

(* strong references start at existing nodes *)
Lemma blank_strong D m n : reachable D -> strong D m n -> exists_node D m.
Proof.
  intros R Hs. destruct (reachable_inv D R) as (F & I & _). unfold exists_node.
  destruct (Nat.lt_ge_cases m (fresh D)) as [|Hge]; [easy|]. exfalso.
  destruct (isolated_none D F m I (iv_iso D F I m Hge)) as (_ & E1 & _ & E2 & _).
  destruct (blank_facts D F m I Hge) as (B1 & B2 & _).
  destruct Hs as [E|[E|[(a & Ha & _)|E]]]; try congruence; [rewrite B1 in Ha|rewrite B2 in E]; easy.
Qed.

(* nodes on a cycle of strong references *)
Lemma cycle_not_freed D H a b : strong D a b -> strong D b a -> ~ freed D H a.
Proof.
  intros H1 H2 Hf. assert (G : forall n, freed D H n -> n <> a /\ n <> b); [|now destruct (G a Hf)].
  induction 1 as [n Ho Hh Hs IH]. split; intros ->; [destruct (IH b H2)|destruct (IH a H1)]; easy.
Qed.
