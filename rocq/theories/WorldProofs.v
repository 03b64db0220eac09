(* Programs with several documents. *)
From Coq Require Import List Bool PeanoNat NArith Lia FinFun.
From Verif Require Import Base Ids Links Tree Iter ForestSpec ListFacts TreeProofs ForestFacts IterSpec IterProofs
  Data Attrs Slab SlabProofs NodeApi Doc AttrFacts LinkProofs AttrSpec DocSpec RemoveProofs RemoveExact History InvProofs
  HistoryProofs DrainProofs TreeSpec TreeApi ApiProofs NodeSpec NodeProofs LoopExact World WorldSpec WorldSim.
Import ListNotations.

(* ---- the root fields hold nodes that exist *)
Definition root_lt (D : dom) : Prop := forall n r, l_root (lk D) n = Some r -> r < fresh D.

Definition root_from (D : dom) (o : option nid) : Prop := forall r, o = Some r -> r < fresh D.

Lemma root_or_self_lt D p : root_lt D -> p < fresh D -> root_of (lk D) p < fresh D.
Proof. intros T Hp. unfold root_of. destruct (l_root (lk D) p) eqn:E; [now apply (T p)|easy]. Qed.

Lemma append_root_lt p n D F L' : InvF D F -> root_lt D -> p < fresh D -> append [] p n (lk D) = Ok L' ->
  root_lt (with_lk L' D).
Proof.
  intros I T Hp H. pose proof (append_refines [] p n (lk D) F (iv_rep D F I)) as Hr.
  destruct (Nat.eqb_spec p n) as [|Hpn]; [congruence|]. destruct (append_conflict _ _ _ _); [congruence|].
  destruct Hr as (L1 & E1 & R1 & Hl). rewrite H in E1. injection E1 as <-.
  intros m r. cbn. rewrite Hl. destruct (Nat.eqb m n); [|apply T]. intros [= <-]. now apply root_or_self_lt.
Qed.
Lemma prepend_root_lt p n D F L' : InvF D F -> root_lt D -> p < fresh D -> prepend [] p n (lk D) = Ok L' ->
  root_lt (with_lk L' D).
Proof.
  intros I T Hp H. pose proof (prepend_refines [] p n (lk D) F (iv_rep D F I)) as Hr.
  destruct (Nat.eqb_spec p n) as [|Hpn]; [congruence|]. destruct (prepend_conflict _ _ _ _); [congruence|].
  destruct Hr as (L1 & E1 & R1 & Hl). rewrite H in E1. injection E1 as <-.
  intros m r. cbn. rewrite Hl. destruct (Nat.eqb m n); [|apply T]. intros [= <-]. now apply root_or_self_lt.
Qed.
Lemma insert_after_root_lt p n D F L' : InvF D F -> root_lt D -> insert_after [] p n (lk D) = Ok L' ->
  root_lt (with_lk L' D).
Proof.
  intros I T H. pose proof (insert_after_refines [] p n (lk D) F (iv_rep D F I)) as Hr.
  destruct (Nat.eqb_spec p n) as [|Hpn]; [congruence|]. destruct (insert_after_conflict _ _ _ _); [congruence|].
  destruct Hr as (L1 & E1 & R1 & Hl). rewrite H in E1. injection E1 as <-.
  intros m r. cbn. rewrite Hl. destruct (Nat.eqb m n); apply T.
Qed.
Lemma insert_before_root_lt p n D F L' : InvF D F -> root_lt D -> insert_before [] p n (lk D) = Ok L' ->
  root_lt (with_lk L' D).
Proof.
  intros I T H. pose proof (insert_before_refines [] p n (lk D) F (iv_rep D F I)) as Hr.
  destruct (Nat.eqb_spec p n) as [|Hpn]; [congruence|]. destruct (insert_before_conflict _ _ _ _); [congruence|].
  destruct Hr as (L1 & E1 & R1 & Hl). rewrite H in E1. injection E1 as <-.
  intros m r. cbn. rewrite Hl. destruct (Nat.eqb m n); apply T.
Qed.

Lemma deep_root_lt fuel : forall p n D D', Inv False D -> root_lt D -> p < fresh D -> make_deep_copy fuel p n D = Ok D' ->
  root_lt D'.
Proof.
  induction fuel as [|fuel IH]; intros p n D D' I T Hp H; [easy|]. cbn [make_deep_copy] in H.
  assert (HH : Inv False D' /\ root_lt D' /\ fresh D <= fresh D'); [|tauto].
  eapply (for_children_inv lk (fun X => Inv False X /\ root_lt X /\ fresh D <= fresh X)); [|split;[exact I|split;[exact T|apply le_n]]|exact H].
  intros c s s' ((F & Is & HA) & Ts & Hle) Hb. cbv beta in Hb.
  ok_bind Hb r E. destruct (copy_node_inv c s F r Is E) as (Hn & I1 & Hl & Hf & Hr).
  ok_bind Hb L' E2.
  assert (I2 : InvF (with_lk L' (snd r)) (f_append p (fst r) F)).
  { apply append_inv; [easy|lia|lia|easy]. }
  assert (I3 : Inv False (with_lk L' (snd r))) by now exists (f_append p (fst r) F).
  assert (T1 : root_lt (snd r)) by (intros m q; rewrite Hl; intros Hq; apply Ts in Hq; lia).
  assert (T2 : root_lt (with_lk L' (snd r))) by (apply (append_root_lt p (fst r) _ F); [easy|easy|lia|easy]).
  destruct (has_children _ c).
  - assert (Hlt : fst r < fresh (with_lk L' (snd r))) by (cbn; lia).
    pose proof (deep_copy_inv False _ _ _ _ _ I3 Hlt Hb) as (I4 & Hle4 & _). cbn in Hle4.
    apply IH in Hb; [|easy|exact T2|cbn; lia]. split; [easy|]. split; [easy|lia].
  - injection Hb as <-. split; [easy|]. split; [exact T2|cbn; lia].
Qed.

Lemma step_root_lt o D D' : Inv False D -> root_lt D -> legal o D -> step o D = Ok D' -> root_lt D'.
Proof.
  intros I T (Hn & Hp) H. pose proof I as (F & IF & _). unfold exists_node in Hn.
  assert (Hsame : forall X, lk X = lk D -> fresh D <= fresh X -> root_lt X).
  { intros X El Ef m r. rewrite El. intros Hr. apply T in Hr. lia. }
  destruct o; cbn [step handles] in *.
  - ok_bind H r E. injection H as <-. apply (create_element_inv D F) in E; [|easy]. apply Hsame; [tauto|lia].
  - ok_bind H r E. injection H as <-. apply (create_node_inv D F) in E; [|easy]. apply Hsame; [tauto|lia].
  - intros m r. rewrite (remove_rec_root False _ _ _ _ I H).
    destruct (remove_rec_inv False _ _ _ _ I H) as (_ & E & _). rewrite E. apply T.
  - ok_bind H r E. injection H as <-. unfold drain in E. intros m x.
    rewrite (drain_root False f _ _ (D, 0) r I E).
    destruct (drain_loop_inv False f _ _ (D, 0) r I E) as (_ & Es & _). cbn in Es. rewrite Es. apply T.
  - ok_bind H r E. injection H as <-. apply (copy_node_inv n D F) in E; [|easy]. apply Hsame; [tauto|lia].
  - ok_bind H r E. injection H as <-. unfold copy_node_deep in E. ok_bind E r1 E1. ok_bind E D2 E2.
    injection E as <-. cbn [snd]. destruct (copy_node_inv n D F r1 IF E1) as (Hf & I1 & Hlk & Hs & Hr).
    assert (I1' : Inv False (snd r1)) by now exists F.
    assert (Hlt : fst r1 < fresh (snd r1)) by lia.
    apply (deep_root_lt _ _ _ _ _ I1' (Hsame _ Hlk ltac:(lia)) Hlt E2).
  - unfold on_links in H. ok_bind H L' E. injection H as <-. intros m r. cbn.
    rewrite (detach_root n _ F L' (iv_rep D F IF) E). apply T.
  - unfold on_links in H. ok_bind H L' E. injection H as <-. apply (append_root_lt p n D F); try easy. apply Hn. now left.
  - unfold on_links in H. ok_bind H L' E. injection H as <-. apply (prepend_root_lt p n D F); try easy. apply Hn. now left.
  - unfold on_links in H. ok_bind H L' E. injection H as <-. now apply (insert_after_root_lt a n D F).
  - unfold on_links in H. ok_bind H L' E. injection H as <-. now apply (insert_before_root_lt a n D F).
  - unfold set_text in H. destruct (is_element D n); [easy|]. injection H as <-. now apply Hsame.
  - injection H as <-. now apply Hsame.
  - unfold set_id in H. destruct (is_element D n); [|easy]. injection H as <-. now apply Hsame.
  - unfold set_tag_name in H. destruct (is_element D n); [|easy]. cbn in H.
    destruct (empty_tag t); [easy|]. injection H as <-. now apply Hsame.
  - apply (set_attribute_inv D F) in H; [|easy]. destruct H as (_ & []). apply Hsame; [easy|lia].
  - ok_bind H r E. injection H as <-. apply (set_checked_inv D F) in E; [|easy]. destruct E as (_ & []).
    apply Hsame; [easy|lia].
  - unfold set_attribute_if_none in H. destruct (negb _).
    + apply (set_attribute_inv D F) in H; [|easy]. destruct H as (_ & []). apply Hsame; [easy|lia].
    + injection H as <-. easy.
  - destruct (remove_attribute_inv D F n name IF) as (D1 & E & I1 & Hf). rewrite E in H. injection H as <-.
    destruct Hf. apply Hsame; [easy|lia].
  - injection H as <-. now apply Hsame.
Qed.
Lemma reachable_root_lt D : reachable D -> root_lt D.
Proof.
  induction 1 as [D H|D o D' H IH Hl Hs].
  - unfold new_document, alloc in H. cbn in H. injection H as <-. now intros n r.
  - apply (step_root_lt o D D'); try easy. now apply reachable_inv.
Qed.

(* ---- every handle in a document is one of its nodes; the other handles are blank *)
Definition olt (k : nat) (o : option nid) : Prop := forall m, o = Some m -> m < k.
Record bounded (D : dom) : Prop := {
  bd_links : forall n, olt (fresh D) (l_root (lk D) n) /\ olt (fresh D) (l_parent (lk D) n) /\
               olt (fresh D) (l_first (lk D) n) /\ olt (fresh D) (l_last (lk D) n) /\
               olt (fresh D) (l_prev (lk D) n) /\ olt (fresh D) (l_next (lk D) n);
  bd_attrs : forall n a t, In a (attributes D n) -> link_target (a_value a) = Some t -> t < fresh D;
  bd_linked : forall n m, In m (linked_nodes D n) -> m < fresh D;
  bd_root : droot D < fresh D;
  bd_store : forall n, In (Occupied n) (s_entries (store D)) -> n < fresh D;
  bd_none : forall n, fresh D <= n -> l_root (lk D) n = None /\ l_parent (lk D) n = None /\ l_first (lk D) n = None /\
              l_last (lk D) n = None /\ l_prev (lk D) n = None /\ l_next (lk D) n = None;
  bd_blank : forall n, fresh D <= n -> dt D n = blank
}.

Lemma iso_none L F n : Rep L F -> isolated F n ->
  l_parent L n = None /\ l_first L n = None /\ l_last L n = None /\ l_prev L n = None /\ l_next L n = None.
Proof.
  intros R (H1 & H2 & H3). rewrite (r_parent _ _ R), (r_first _ _ R), (r_last _ _ R), (r_prev _ _ R), (r_next _ _ R), H1, H2, H3.
  cbn. rewrite Nat.eqb_refl. unfold pred_in. cbn. rewrite Nat.eqb_refl. easy.
Qed.

Lemma reachable_bounded D : reachable D -> bounded D.
Proof.
  intros H. destruct (reachable_inv D H) as (F & I & _). pose proof (iv_rep D F I) as R. pose proof (r_wf _ _ R) as W.
  assert (Hs : forall n m, In m (siblings_of F n) -> n < fresh D -> m < fresh D).
  { intros n m Hm Hn. destruct (Nat.lt_ge_cases m (fresh D)) as [|Hle]; [easy|].
    destruct (iv_iso D F I m Hle) as (_ & Hs & _). pose proof (proj1 (wf_share F W n m Hm)) as E. rewrite Hs in E.
    pose proof (wf_self F W n) as Hin. rewrite <- E in Hin. destruct Hin as [<-|[]]. easy. }
  assert (Hnone : forall n, fresh D <= n -> l_parent (lk D) n = None /\ l_first (lk D) n = None /\ l_last (lk D) n = None /\
                    l_prev (lk D) n = None /\ l_next (lk D) n = None).
  { intros n Hn. apply (iso_none (lk D) F n R). now apply (iv_iso D F I). }
  split.
  - intros n. split; [intros m; now apply (reachable_root_lt D H)|].
    destruct (Nat.lt_ge_cases n (fresh D)) as [Hn|Hn].
    2: { destruct (Hnone n Hn) as (-> & -> & -> & -> & ->). repeat split; now intros m. }
    repeat split; intros m.
    + rewrite (r_parent _ _ R). intros Hm. apply (wf_parent F W) in Hm. destruct (Nat.lt_ge_cases m (fresh D)) as [|Hle]; [easy|].
      destruct (iv_iso D F I m Hle) as (_ & _ & E). pose proof (wf_self F W n) as Hin. now rewrite Hm, E in Hin.
    + rewrite (r_first _ _ R). intros Hm. apply (child_exists D F n m I). destruct (children_of F n); [easy|].
      injection Hm as <-. now left.
    + rewrite (r_last _ _ R). intros Hm. apply (child_exists D F n m I). now apply last_error_In.
    + rewrite (r_prev _ _ R). intros Hm. apply (Hs n m); [|easy]. now apply pred_in_In in Hm.
    + rewrite (r_next _ _ R). intros Hm. apply (Hs n m); [|easy]. now apply succ_in_In in Hm.
  - intros n a t Ha Ht. apply (target_exists D F n t I). apply count_links_pos. now exists a.
  - intros n m Hm. destruct (Nat.lt_ge_cases m (fresh D)) as [|Hle]; [easy|].
    destruct (blank_facts D F m I Hle) as (E1 & E2 & _). pose proof (li_sym D (iv_link D F I) m n) as Hc.
    rewrite E1 in Hc. cbn in Hc. apply (count_occ_In Nat.eq_dec) in Hm. unfold nid in *. lia.
  - apply (iv_rlt D F I).
  - intros n Hn. apply In_nth_error in Hn. destruct Hn as (k & Hk).
    assert (Hg : slab_get (store D) k = Some n) by (unfold slab_get; now rewrite Hk).
    apply (so_bwd _ _ (iv_slab D F I)) in Hg. destruct (Nat.lt_ge_cases n (fresh D)) as [|Hle]; [easy|].
    unfold storage_key in Hg. now rewrite (iv_blank D F I n Hle) in Hg.
  - intros n Hn. split; [now apply (reachable_root_blank D H)|now apply Hnone].
  - apply (iv_blank D F I).
Qed.

(* ---- outcomes with different fuel *)
Definition wrel {A B} (R : A -> B -> Prop) (r : res A) (r' : res B) : Prop :=
  match r with
  | Ok a => exists b, r' = Ok b /\ R a b
  | Panic p => r' = Panic p
  | Diverge => forall b, r' <> Ok b
  end.
Lemma rrel_wrel {A B} (R : A -> B -> Prop) r r' : rrel R r r' -> wrel R r r'.
Proof. destruct r, r'; cbn; try easy; intros H; [eauto|now subst]. Qed.
Lemma wrel_bind {A B A' B'} (R : A -> A' -> Prop) (S : B -> B' -> Prop) r r' k k' :
  wrel R r r' -> (forall a b, R a b -> wrel S (k a) (k' b)) -> wrel S (bind r k) (bind r' k').
Proof.
  intros H Hk. destruct r; cbn in *.
  - destruct H as (b & -> & H). cbn. now apply Hk.
  - now subst.
  - intros b. destruct r'; cbn; try easy. now destruct (H a).
Qed.

Lemma rrel_bind_eq {A B A' B'} (R : A -> A' -> Prop) (S : B -> B' -> Prop) r r' k k' :
  rrel R r r' -> (forall a b, r = Ok a -> r' = Ok b -> R a b -> rrel S (k a) (k' b)) -> rrel S (bind r k) (bind r' k').
Proof. intros H Hk. destruct r, r'; cbn in *; try easy. now apply Hk. Qed.

Lemma next_olt D F n : InvF D F -> n < fresh D -> olt (fresh D) (l_next (lk D) n).
Proof.
  intros I Hn m Em. pose proof (iv_rep D F I) as R. rewrite (r_next _ _ R) in Em. apply succ_in_In in Em.
  destruct (Nat.lt_ge_cases m (fresh D)) as [|Hle]; [easy|]. destruct (iv_iso D F I m Hle) as (_ & Hs & _).
  pose proof (proj1 (wf_share F (r_wf _ _ R) n m (proj2 Em))) as E. rewrite Hs in E.
  pose proof (wf_self F (r_wf _ _ R) n) as Hin. rewrite <- E in Hin. destruct Hin as [->|[]]. easy.
Qed.
Lemma first_olt D F n : InvF D F -> olt (fresh D) (l_first (lk D) n).
Proof.
  intros I m Hm. rewrite (r_first _ _ (iv_rep D F I)) in Hm. apply (child_exists D F n m I).
  destruct (children_of F n); [easy|]. injection Hm as <-. now left.
Qed.

Section Step.
  Context (f : nid -> nid) (Hf : injective f) (V0 : dom).
  Notation DS := (DS f V0).

  Lemma ds_size D V : DS D V -> fresh D <= fresh V.
  Proof.
    intros H. assert (Hlt : forall n, n < fresh D -> f n < fresh V).
    { intros n Hn. destruct (Nat.lt_ge_cases (f n) (fresh V)) as [|Hle]; [easy|].
      pose proof (ds_fresh f V0 D V H (f n - fresh V)) as E. replace (fresh V + (f n - fresh V)) with (f n) in E by lia.
      apply Hf in E. lia. }
    rewrite <- (seq_length (fresh D) 0), <- (map_length f), <- (seq_length (fresh V) 0).
    apply NoDup_incl_length.
    - apply Injective_map_NoDup; [exact Hf|apply seq_NoDup].
    - intros m Hm. apply in_map_iff in Hm. destruct Hm as (n & <- & Hn). apply in_seq in Hn. apply in_seq.
      specialize (Hlt n). lia.
  Qed.

  Lemma remove_node_fuel D F n k : InvF D F -> n < fresh D -> enough D <= k -> remove_rec k n D = remove_node n D.
  Proof.
    intros I Hn Hk. unfold remove_node. destruct (remove_rec (enough D) n D) as [D1|p|] eqn:E.
    - rewrite <- E. apply remove_rec_mono; [easy|]. now rewrite E.
    - rewrite <- E. apply remove_rec_mono; [easy|]. now rewrite E.
    - destruct (remove_rec k n D) as [D1|p|] eqn:Ek; [| |easy].
      all: assert (Hd : remove_rec k n D <> Diverge) by now rewrite Ek.
      all: destruct (remove_rec_finite_only k n D F (RInv_of D F I) Hd) as (t & <- & Ht).
      all: destruct (remove_node_spec D F t I Ht Hn) as (D2 & E2 & _); unfold remove_node in E2; congruence.
  Qed.
  Lemma remove_node_sim D V F n : InvF D F -> n < fresh D -> DS D V -> rrel DS (remove_node n D) (remove_node (f n) V).
  Proof.
    intros I Hn H. rewrite <- (remove_node_fuel D F n (enough V) I Hn).
    - now apply remove_rec_sim.
    - pose proof (ds_size D V H). unfold enough. lia.
  Qed.

  Definition QS (s s' : dom * nat) : Prop := DS (fst s) (fst s') /\ snd s' = snd s.
  Lemma drain_loop_sim p q : (forall D V n, DS D V -> p D n = q V (f n)) ->
    forall fuel n s s', Inv False (fst s) -> olt (fresh (fst s)) n -> QS s s' ->
    rrel QS (drain_loop fuel p n s) (drain_loop fuel q (option_map f n) s').
  Proof.
    intros Hpq. induction fuel as [|fuel IH]; intros n [D k] [V k'] I Hn (H & Hk); [easy|]. cbn in I, Hn, H, Hk. subst k'.
    cbn [drain_loop fst snd]. destruct n as [n|]; cbn [option_map]; [|now split]. specialize (Hn n eq_refl).
    destruct I as (F & I & HA). rewrite <- (Hpq D V n H). unfold next_sibling, first_child, has_children, first_child.
    destruct (p D n).
    - rewrite (g_next f V0 _ _ (ds_lk f V0 D V H) n).
      eapply rrel_bind_eq; [exact (remove_node_sim D V F n I Hn H)|]. intros D1 V1 E1 _ H1.
      assert (I0 : Inv False D) by now exists F.
      destruct (remove_rec_inv False _ _ _ _ I0 E1) as (I1 & S1 & _).
      apply IH; [exact I1| |now split]. cbn [fst]. rewrite S1. now apply (next_olt D F).
    - assert (I0 : Inv False D) by now exists F.
      eapply (rrel_bind_eq QS).
      + rewrite (g_first f V0 _ _ (ds_lk f V0 D V H) n). destruct (l_first (lk D) n) as [c|] eqn:Ec; cbn [option_map]; [|now split].
        apply (IH (Some c)); [easy| |now split]. cbn. rewrite <- Ec. now apply (first_olt D F).
      + intros [D1 k1] [V1 k1'] E1 _ (H1 & Hk1). cbn in H1, Hk1. subst k1'. cbn [fst].
        rewrite (g_next f V0 _ _ (ds_lk f V0 D1 V1 H1) n).
        assert (HI : Inv False D1 /\ fresh D1 = fresh D).
        { destruct (l_first (lk D) n); [|injection E1 as <- <-; now split].
          destruct (drain_loop_inv False p fuel _ (D, k) _ I0 E1) as (Ha & Hb & _). now split. }
        destruct HI as ((F1 & I1 & HA1) & Hs). apply IH; [now exists F1| |now split]. cbn [fst].
        apply (next_olt D1 F1); [easy|]. lia.
  Qed.

  Lemma drain_sim p q D V F n : (forall D V n, DS D V -> p D n = q V (f n)) -> InvF D F -> n < fresh D -> DS D V ->
    rrel QS (drain n p D) (drain (f n) q V).
  Proof.
    intros Hpq I Hn H. unfold drain. set (b := drain_loop (S (enough V)) q _ _).
    assert (E : rrel QS (drain_loop (S (enough V)) p (first_child (lk D) n) (D, 0)) b).
    { unfold b, first_child. rewrite (g_first f V0 _ _ (ds_lk f V0 D V H) n).
      apply drain_loop_sim; [easy|now exists F|now apply (first_olt D F)|now split]. }
    destruct (drain_exact D F n p I Hn) as [(_ & r & Er)|(_ & Hd)].
    - unfold drain in Er. rewrite Er. rewrite (drain_mono p (S (enough D))), Er in E; [easy| |now rewrite Er].
      pose proof (ds_size D V H). unfold enough. lia.
    - rewrite Hd in *. exact E.
  Qed.

  Lemma deep_copy_sim D V F n : InvF D F -> n < fresh D -> DS D V ->
    wrel (NS f V0) (copy_node_deep n D) (copy_node_deep (f n) V).
  Proof.
    intros I Hn H. unfold copy_node_deep.
    pose proof (copy_node_sim f Hf V0 n D V H) as Hc. pose proof (ds_size D V H) as Hsz.
    destruct (copy_node n D) as [r| |] eqn:Er; destruct (copy_node (f n) V) as [r'| |]; cbn in Hc; try easy; [|cbn; congruence].
    cbn [bind]. destruct Hc as (H1 & H2). rewrite H1.
    pose proof (deep_sim f Hf V0 (enough V) (fst r) n _ _ H2) as Hd.
    destruct (make_deep_copy (enough D) (fst r) n (snd r)) as [D2|p|] eqn:E; cbn [bind wrel].
    - rewrite (deep_mono (enough D)), E in Hd; [|unfold enough; lia|now rewrite E].
      destruct (make_deep_copy (enough V) _ _ _) as [V2| |]; try easy. exists (f (fst r), V2). split; [easy|]. now split.
    - rewrite (deep_mono (enough D)), E in Hd; [|unfold enough; lia|now rewrite E].
      destruct (make_deep_copy (enough V) _ _ _); cbn in Hd; try easy. now subst.
    - intros b. destruct (make_deep_copy (enough V) (f (fst r)) _ _) as [V2| |] eqn:EV; cbn [bind]; try easy. intros _.
      destruct (make_deep_copy (enough V) (fst r) n (snd r)) as [D2| |] eqn:ED; cbn in Hd; try easy.
      destruct (deep_any_fuel D F n r (enough V) D2 I Hn Er ED) as (_ & E2). unfold copy_node_deep in E2.
      rewrite Er in E2. cbn [bind] in E2. now rewrite E in E2.
  Qed.

  (* the same call, with a closure that answers the same *)
  Inductive op_sim : op -> op -> Prop :=
  | os_drain : forall n p q, (forall D V n, DS D V -> p D n = q V (f n)) -> op_sim (ODrain n p) (ODrain (f n) q)
  | os_other : forall o o', renamed_op f o o' -> (forall n p, o <> ODrain n p) -> op_sim o o'.

  Lemma on_links_sim g g' D V : (forall L L', LS f V0 L L' -> rrel (LS f V0) (g L) (g' L')) -> DS D V ->
    rrel DS (on_links g D) (on_links g' V).
  Proof.
    intros Hg H. unfold on_links. eapply rrel_bind; [apply Hg, (ds_lk f V0 D V H)|]. intros L L' HL. cbn.
    now apply with_lk_sim.
  Qed.

  Theorem step_sim o o' D V : Inv False D -> legal o D -> DS D V -> op_sim o o' -> wrel DS (step o D) (step o' V).
  Proof.
    intros (F & I & _) HL H Ho. destruct Ho as [n p q Hpq|a b Hr Hd]; destruct HL as (Hn & _).
    - apply rrel_wrel. cbn [step]. eapply rrel_bind; [exact (drain_sim p q D V F n Hpq I (Hn n (or_introl eq_refl)) H)|].
      intros r r' (Hr & _). exact Hr.
    - destruct Hr; cbn [step handles] in *; try (exfalso; now apply (Hd n p)).
      all: match goal with |- wrel _ (bind (copy_node_deep _ _) _) _ => idtac | _ => apply rrel_wrel end.
      + eapply rrel_bind; [exact (create_element_sim f Hf V0 t D V H)|]. intros r r' (_ & Hr). exact Hr.
      + eapply rrel_bind; [exact (create_node_sim f Hf V0 ty s D V H)|]. intros r r' (_ & Hr). exact Hr.
      + exact (remove_node_sim D V F n I (Hn n (or_introl eq_refl)) H).
      + eapply rrel_bind; [exact (copy_node_sim f Hf V0 n D V H)|]. intros r r' (_ & Hr). exact Hr.
      + eapply wrel_bind; [exact (deep_copy_sim D V F n I (Hn n (or_introl eq_refl)) H)|]. intros r r' (_ & Hr). cbn. eauto.
      + apply on_links_sim; [|easy]. intros L L' HL. exact (detach_sim f Hf V0 [] n L L' HL).
      + apply on_links_sim; [|easy]. intros L L' HL. exact (append_sim f Hf V0 [] p n L L' HL).
      + apply on_links_sim; [|easy]. intros L L' HL. exact (prepend_sim f Hf V0 [] p n L L' HL).
      + apply on_links_sim; [|easy]. intros L L' HL. exact (insert_after_sim f Hf V0 [] p n L L' HL).
      + apply on_links_sim; [|easy]. intros L L' HL. exact (insert_before_sim f Hf V0 [] p n L L' HL).
      + unfold set_text. rewrite (ds_is_element f V0 D V n H). destruct (is_element D n); cbn; [easy|]. now apply modify_sim.
      + cbn. now apply modify_sim.
      + unfold set_id. rewrite (ds_is_element f V0 D V n H). destruct (is_element D n); cbn; [|easy]. now apply modify_sim.
      + unfold set_tag_name. rewrite (ds_is_element f V0 D V n H). destruct (negb _); cbn; [easy|].
        destruct (empty_tag t); cbn; [easy|]. now apply modify_sim.
      + now apply set_attribute_sim.
      + eapply rrel_bind; [exact (set_checked_sim f Hf V0 n a D V H)|]. intros r r' (Hr & _). exact Hr.
      + now apply set_if_none_sim.
      + now apply remove_attribute_sim.
      + cbn. apply modify_sim; [easy|easy|]. intros d. unfold set_attrs, rename_data. cbn. now rewrite edit_rename.
  Qed.
End Step.
