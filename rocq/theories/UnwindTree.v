(* Moves: the tree after a panic. *)
From Coq Require Import List Bool PeanoNat Lia.
From Verif Require Import Base Links Tree ForestSpec TreeSpec ListFacts TreeProofs TreeApi ForestFacts Data Attrs NodeApi
  AttrSpec Guards GuardSpec Unwind UnwindSpec.
Import ListNotations.

(* ---- erasing the state *)
Lemma unc_bind {S A} (o : S * fate A) (k : A -> S -> S * fate unit) (m : res S) (h : S -> res S) :
  (match o with (s, Gives _) => Ok s | (_, Panics p) => Panic p end) = m ->
  (forall a s, uncaught_ (k a s) = h s) -> uncaught_ (seq_ o k) = bind m h.
Proof. intros <- H. destruct o as [s [a|p]]; cbn; [apply H|reflexivity]. Qed.
Lemma unc_borrow {S} G n (s : S) (k : S * fate unit) m : uncaught_ k = m ->
  uncaught_ (u_borrow_mut G n s k) = borrow_mut G n m.
Proof. intros <-. unfold u_borrow_mut, borrow_mut. now destruct (mem n G). Qed.

Lemma unc_detach_data G n L : uncaught_ (u_detach_data G n L) = detach_data G n L.
Proof.
  unfold u_detach_data, detach_data. apply unc_bind.
  - destruct (l_next L n) as [nx|]; [now apply unc_borrow|]. destruct (l_parent L n); [now apply unc_borrow|easy].
  - intros _ s. destruct (l_prev L n) as [pv|]; [now apply unc_borrow|]. destruct (l_parent L n); [now apply unc_borrow|easy].
Qed.
Lemma unc_detach G n L : uncaught_ (u_detach G n L) = detach G n L.
Proof. apply unc_borrow, unc_detach_data. Qed.
Lemma unc_append G p n L : uncaught_ (u_append G p n L) = append G p n L.
Proof.
  unfold u_append, append. destruct (Nat.eqb p n); [easy|]. do 2 apply unc_borrow.
  apply unc_bind; [apply unc_detach_data|]. intros _ s. cbv zeta.
  destruct (l_last (set_parent n (Some p) (set_root n (root_or_self s p) s)) p) as [lc|].
  - apply unc_borrow. match goal with |- context [match l_next ?a ?b with _ => _ end] => now destruct (l_next a b) end.
  - match goal with |- context [match l_first ?a ?b with _ => _ end] => now destruct (l_first a b) end.
Qed.
Lemma unc_prepend G p n L : uncaught_ (u_prepend G p n L) = prepend G p n L.
Proof.
  unfold u_prepend, prepend. destruct (Nat.eqb p n); [easy|]. do 2 apply unc_borrow.
  apply unc_bind; [apply unc_detach_data|]. intros _ s. cbv zeta. apply unc_bind.
  - destruct (l_first (set_parent n (Some p) (set_root n (root_or_self s p) s)) p) as [fc|].
    + apply unc_borrow. match goal with |- context [match l_prev ?a ?b with _ => _ end] => now destruct (l_prev a b) end.
    + match goal with |- context [match l_first ?a ?b with _ => _ end] => now destruct (l_first a b) end.
  - easy.
Qed.
Lemma unc_insert_after G p n L : uncaught_ (u_insert_after G p n L) = insert_after G p n L.
Proof.
  unfold u_insert_after, insert_after. destruct (Nat.eqb p n); [easy|]. do 2 apply unc_borrow.
  apply unc_bind; [apply unc_detach_data|]. intros _ s. cbv zeta. apply unc_bind.
  - match goal with |- context [match l_next ?a ?b with _ => _ end] => destruct (l_next a b) as [nx|] end.
    + apply unc_borrow. match goal with |- context [match l_prev ?a ?b with _ => _ end] => destruct (l_prev a b) as [w|] end; [|easy].
      now destruct (Nat.eqb w p).
    + match goal with |- context [match l_parent ?a ?b with _ => _ end] => destruct (l_parent a b) as [q|] end; [|easy].
      now apply unc_borrow.
  - easy.
Qed.
Lemma unc_insert_before G p n L : uncaught_ (u_insert_before G p n L) = insert_before G p n L.
Proof.
  unfold u_insert_before, insert_before. destruct (Nat.eqb p n); [easy|]. do 2 apply unc_borrow.
  apply unc_bind; [apply unc_detach_data|]. intros _ s. cbv zeta.
  match goal with |- context [match l_prev ?a ?b with _ => _ end] => destruct (l_prev a b) as [pv|] end.
  - apply unc_borrow. match goal with |- context [match l_next ?a ?b with _ => _ end] => destruct (l_next a b) as [w|] end; [|easy].
    now destruct (Nat.eqb w p).
  - match goal with |- context [match l_parent ?a ?b with _ => _ end] => destruct (l_parent a b) as [q|] end; [|easy].
    now apply unc_borrow.
Qed.

(* ---- what consistent links satisfy *)
Section Sym.
  Variable L : links.
  Hypothesis C : consistent L.
  Lemma c_next_prev x y : l_next L x = Some y <-> l_prev L y = Some x.
  Proof.
    destruct C as (F & S). apply shows_Rep in S. rewrite (r_next _ _ S), (r_prev _ _ S). split; intros H.
    - pose proof (succ_in_In _ _ _ H) as (_ & Hin). destruct (wf_share F (r_wf _ _ S) x y Hin) as (-> & _).
      apply succ_to_pred; [apply (r_wf _ _ S)|easy].
    - pose proof (pred_in_In _ _ _ H) as (_ & Hin). destruct (wf_share F (r_wf _ _ S) y x Hin) as (-> & _).
      apply pred_to_succ; [apply (r_wf _ _ S)|easy].
  Qed.
  Lemma c_first p c : l_first L p = Some c -> l_parent L c = Some p /\ l_prev L c = None.
  Proof.
    destruct C as (F & S). apply shows_Rep in S. rewrite (r_first _ _ S), (r_parent _ _ S), (r_prev _ _ S). intros H.
    assert (Hp : parent_of F c = Some p).
    { apply (wf_child F (r_wf _ _ S)). destruct (children_of F p); [easy|]. injection H as ->. now left. }
    split; [easy|]. apply pred_none_hd; [apply (r_wf _ _ S)..|]. now rewrite (wf_parent F (r_wf _ _ S) c p Hp).
  Qed.
  Lemma c_last p c : l_last L p = Some c -> l_parent L c = Some p /\ l_next L c = None.
  Proof.
    destruct C as (F & S). apply shows_Rep in S. rewrite (r_last _ _ S), (r_parent _ _ S), (r_next _ _ S). intros H.
    assert (Hp : parent_of F c = Some p).
    { apply (wf_child F (r_wf _ _ S)). apply in_rev. unfold last_error in H. destruct (rev (children_of F p)); [easy|]. injection H as ->. now left. }
    split; [easy|]. apply succ_none_last; [apply (r_wf _ _ S)..|]. now rewrite (wf_parent F (r_wf _ _ S) c p Hp).
  Qed.
  Lemma c_parent p c : l_parent L c = Some p -> exists f, l_first L p = Some f.
  Proof.
    destruct C as (F & S). apply shows_Rep in S. rewrite (r_first _ _ S), (r_parent _ _ S). intros H.
    assert (Hin : In c (children_of F p)) by (rewrite <- (wf_parent F (r_wf _ _ S) c p H); apply (r_wf _ _ S)).
    destruct (children_of F p) as [|f k]; [easy|]. now exists f.
  Qed.
  Lemma c_only p c : l_parent L c = Some p -> l_next L c = None -> l_last L p = Some c.
  Proof.
    destruct C as (F & S). apply shows_Rep in S. rewrite (r_last _ _ S), (r_parent _ _ S), (r_next _ _ S). intros H Hn.
    apply succ_none_last in Hn; [|apply (r_wf _ _ S)..]. now rewrite (wf_parent F (r_wf _ _ S) c p H) in Hn.
  Qed.
  Lemma c_head p c : l_parent L c = Some p -> l_prev L c = None -> l_first L p = Some c.
  Proof.
    destruct C as (F & S). apply shows_Rep in S. rewrite (r_first _ _ S), (r_parent _ _ S), (r_prev _ _ S). intros H Hn.
    apply pred_none_hd in Hn; [|apply (r_wf _ _ S)..]. now rewrite (wf_parent F (r_wf _ _ S) c p H) in Hn.
  Qed.
  Lemma c_first_last p : l_last L p = None -> l_first L p = None.
  Proof.
    destruct C as (F & S). apply shows_Rep in S. rewrite (r_first _ _ S), (r_last _ _ S). unfold last_error.
    destruct (children_of F p) as [|f k]; [easy|]. cbn. destruct (rev k); easy.
  Qed.
  Lemma c_neq x : l_next L x <> Some x.
  Proof.
    destruct C as (F & S). apply shows_Rep in S. rewrite (r_next _ _ S). intros H. now apply succ_in_neq in H; [|apply (r_wf _ _ S)].
  Qed.
End Sym.

Ltac updc H := cbn [l_root l_parent l_first l_last l_prev l_next set_root set_parent set_first set_last set_prev set_next] in H;
  unfold upd in H; cbn beta in H; rewrite ?Nat.eqb_refl in H.

(* ---- detach *)
Lemma detach_data_panic G n L L' q : consistent L -> u_detach_data G n L = (L', Panics q) -> ~ consistent L'.
Proof.
  intros C E C'. unfold u_detach_data in E. cbv zeta in E.
  remember (set_next n None (set_prev n None (set_parent n None L))) as L1 eqn:E1.
  assert (N1 : l_next L1 n = None) by (subst; cbn; unfold upd; now rewrite Nat.eqb_refl).
  assert (P1 : l_prev L1 n = None) by (subst; cbn; unfold upd; now rewrite Nat.eqb_refl).
  assert (Q1 : l_parent L1 n = None) by (subst; cbn; unfold upd; now rewrite Nat.eqb_refl).
  assert (NO : forall x, x <> n -> l_next L1 x = l_next L x) by (intros x Hx; subst; cbn; unfold upd; destruct (Nat.eqb_spec x n); easy).
  assert (PO : forall x, x <> n -> l_prev L1 x = l_prev L x) by (intros x Hx; subst; cbn; unfold upd; destruct (Nat.eqb_spec x n); easy).
  assert (FO : forall x, l_first L1 x = l_first L x) by (intros x; subst; easy).
  assert (LO : forall x, l_last L1 x = l_last L x) by (intros x; subst; easy).
  clear E1.
  assert (First : forall o, (match l_next L n with
       | Some nx => u_borrow_mut G nx L1 (set_prev nx (l_prev L n) L1, Gives tt)
       | None => match l_parent L n with
                 | Some p => u_borrow_mut G p L1 (set_last p (l_prev L n) L1, Gives tt)
                 | None => (L1, Gives tt) end end) = o ->
     (o = (L1, Panics PBorrow) /\ ~ consistent L1) \/
     exists L2, o = (L2, Gives tt) /\ l_next L2 = l_next L1 /\ l_parent L2 = l_parent L1 /\ l_first L2 = l_first L1 /\
        l_prev L2 n = None).
  { intros o <-. destruct (l_next L n) as [nx|] eqn:Enx.
    - assert (Hnx : nx <> n) by (intros ->; now apply (c_neq L C n)).
      unfold u_borrow_mut. destruct (mem nx G).
      + left. split; [easy|]. intros C1. assert (Hb : l_prev L1 nx = Some n) by (rewrite (PO nx Hnx); now apply (c_next_prev L C)).
        apply (c_next_prev L1 C1) in Hb. congruence.
      + right. exists (set_prev nx (l_prev L n) L1). repeat (split; [easy|]). cbn. unfold upd.
        destruct (Nat.eqb_spec n nx); [congruence|easy].
    - destruct (l_parent L n) as [p|] eqn:Ep.
      + unfold u_borrow_mut. destruct (mem p G).
        * left. split; [easy|]. intros C1. pose proof (c_only L C p n Ep Enx) as Hl. rewrite <- LO in Hl.
          apply (c_last L1 C1) in Hl. destruct Hl. congruence.
        * right. exists (set_last p (l_prev L n) L1). repeat (split; [easy|]). easy.
      + right. exists L1. easy. }
  destruct (First _ eq_refl) as [(Eo & Hc)|(L2 & Eo & HN & HQ & HF & HP)]; rewrite Eo in E; cbn [seq_] in E.
  - injection E as <- _. contradiction.
  - destruct (l_prev L n) as [pv|] eqn:Epv.
    + unfold u_borrow_mut in E. destruct (mem pv G); [|discriminate]. injection E as <- _.
      assert (Hpv : l_next L pv = Some n) by (now apply (c_next_prev L C)).
      assert (pv <> n) by (intros ->; now apply (c_neq L C n)).
      rewrite <- (NO pv), <- HN in Hpv; [|easy]. apply (c_next_prev L2 C') in Hpv. congruence.
    + destruct (l_parent L n) as [p|] eqn:Ep; [|discriminate].
      unfold u_borrow_mut in E. destruct (mem p G); [|discriminate]. injection E as <- _.
      pose proof (c_head L C p n Ep Epv) as Hf. rewrite <- FO, <- HF in Hf. apply (c_first L2 C') in Hf. destruct Hf. congruence.
Qed.

Lemma detach_data_done G n L L1 : consistent L -> u_detach_data G n L = (L1, Gives tt) ->
  consistent L1 /\ l_parent L1 n = None /\ l_prev L1 n = None /\ l_next L1 n = None.
Proof.
  intros (F & S) E. apply shows_Rep in S. pose proof (detach_data_refines G n L F S) as H.
  pose proof (unc_detach_data G n L) as U. rewrite E in U. cbn in U. rewrite <- U in H.
  destruct (existsb _ _); [discriminate|]. destruct H as (L2 & E2 & R & _). injection E2 as <-.
  split; [exists (f_detach n F); now apply shows_Rep|].
  rewrite (r_parent _ _ R), (r_prev _ _ R), (r_next _ _ R). cbn. rewrite Nat.eqb_refl. split; [easy|].
  unfold pred_in. cbn. now rewrite Nat.eqb_refl.
Qed.

Theorem detach_end G n L : consistent L -> move_end (In n G) L (detach G n L) (u_detach G n L).
Proof.
  intros C. split; [apply unc_detach|]. intros L' q E. unfold u_detach, u_borrow_mut in E. destruct (mem n G) eqn:Em.
  - apply mem_In in Em. injection E as <- _. tauto.
  - apply mem_not_In in Em. split; [tauto|]. intros _. now apply detach_data_panic in E.
Qed.

(* the shape of the four other calls *)
Lemma move_early G p n L r (k : links * fate unit) : uncaught_ (if Nat.eqb p n then (L, Panics PAssert) else u_borrow_mut G p L (u_borrow_mut (p :: G) n L k)) = r ->
  (forall L' q, k = (L', Panics q) -> ~ consistent L') ->
  move_end (p = n \/ In p G \/ In n G) L r
    (if Nat.eqb p n then (L, Panics PAssert) else u_borrow_mut G p L (u_borrow_mut (p :: G) n L k)).
Proof.
  intros Hr Hk. split; [exact Hr|]. intros L' q E. destruct (Nat.eqb_spec p n) as [->|Hpn].
  - injection E as <- _. tauto.
  - unfold u_borrow_mut in E. destruct (mem p G) eqn:Ep.
    + apply mem_In in Ep. injection E as <- _. tauto.
    + apply mem_not_In in Ep. destruct (mem n (p :: G)) eqn:En.
      * apply mem_In in En. destruct En as [|En]; [easy|]. injection E as <- _. tauto.
      * apply mem_not_In in En. split; [|intros _; now apply (Hk L' q)].
        intros [|[|H]]; [easy|easy|]. exfalso. apply En. now right.
Qed.

Theorem append_end G p n L : consistent L -> move_end (p = n \/ In p G \/ In n G) L (append G p n L) (u_append G p n L).
Proof.
  intros C. apply move_early; [apply unc_append|]. intros L' q E C'.
  destruct (u_detach_data (n :: p :: G) n L) as [L1 [[]|q1]] eqn:ED.
  2:{ cbn [seq_] in E. injection E as <- _. now apply (detach_data_panic _ _ _ _ _ C ED). }
  cbn [seq_] in E. destruct (detach_data_done _ _ _ _ C ED) as (C1 & Q1 & P1 & N1).
  cbv zeta in E. change (l_last (set_parent n (Some p) (set_root n (root_or_self L1 p) L1)) p) with (l_last L1 p) in E.
  destruct (l_last L1 p) as [lc|] eqn:El.
  - destruct (c_last L1 C1 p lc El) as (Hlp & Hln). unfold u_borrow_mut in E.
    match goal with H : (if mem lc (p :: G) then (?X, _) else _) = _ |- _ => set (L2 := X) in H end.
    assert (Hn2 : l_next L2 lc = None) by (unfold L2; exact Hln).
    assert (Hp2 : l_prev L2 n = Some lc) by (unfold L2; cbn; unfold upd; now rewrite Nat.eqb_refl).
    destruct (mem lc (p :: G)).
    + injection E as <- _. apply (c_next_prev L2 C') in Hp2. congruence.
    + rewrite Hn2 in E. discriminate.
  - pose proof (c_first_last L1 C1 p El) as Hf.
    match goal with H : (match l_first ?X p with _ => _ end) = _ |- _ => change (l_first X p) with (l_first L1 p) in H end.
    rewrite Hf in E. discriminate.
Qed.

Theorem prepend_end G p n L : consistent L -> move_end (p = n \/ In p G \/ In n G) L (prepend G p n L) (u_prepend G p n L).
Proof.
  intros C. apply move_early; [apply unc_prepend|]. intros L' q E C'.
  destruct (u_detach_data (n :: p :: G) n L) as [L1 [[]|q1]] eqn:ED.
  2:{ cbn [seq_] in E. injection E as <- _. now apply (detach_data_panic _ _ _ _ _ C ED). }
  cbn [seq_] in E. destruct (detach_data_done _ _ _ _ C ED) as (C1 & Q1 & P1 & N1).
  cbv zeta in E. change (l_first (set_parent n (Some p) (set_root n (root_or_self L1 p) L1)) p) with (l_first L1 p) in E.
  match goal with H : context [u_borrow_mut _ _ ?X _] |- _ => set (L2 := X) in * end.
  assert (Hf2 : l_first L2 p = None) by (unfold L2; cbn; unfold upd; now rewrite Nat.eqb_refl).
  assert (Hp2 : l_parent L2 n = Some p) by (unfold L2; cbn; unfold upd; now rewrite Nat.eqb_refl).
  destruct (l_first L1 p) as [fc|] eqn:Ef.
  - destruct (c_first L1 C1 p fc Ef) as (Hfp & Hfn). unfold u_borrow_mut in E.
    assert (Hv : l_prev L2 fc = None) by (unfold L2; exact Hfn).
    destruct (mem fc (n :: p :: G)); cbn [seq_] in E.
    + injection E as <- _. destruct (c_parent L2 C' p n Hp2). congruence.
    + rewrite Hv in E. discriminate.
  - rewrite Hf2 in E. discriminate.
Qed.

Theorem insert_after_end G p n L : consistent L -> move_end (p = n \/ In p G \/ In n G) L (insert_after G p n L) (u_insert_after G p n L).
Proof.
  intros C. destruct (Nat.eq_dec p n) as [Hpn|Hpn].
  { subst p. split; [apply unc_insert_after|]. intros L' q E. unfold u_insert_after in E. rewrite Nat.eqb_refl in E. injection E as <- _. tauto. }
  apply move_early; [apply unc_insert_after|]. intros L' q E C'.
  destruct (u_detach_data (n :: p :: G) n L) as [L1 [[]|q1]] eqn:ED.
  2:{ cbn [seq_] in E. injection E as <- _. now apply (detach_data_panic _ _ _ _ _ C ED). }
  cbn [seq_] in E. destruct (detach_data_done _ _ _ _ C ED) as (C1 & Q1 & P1 & N1).
  cbv zeta in E.
  change (l_next (set_prev n (Some p) (set_parent n (l_parent (set_root n (l_root L1 p) L1) p) (set_root n (l_root L1 p) L1))) p) with (l_next L1 p) in E.
  match goal with H : context [match l_next L1 p with Some nx => u_borrow_mut _ _ ?X _ | None => _ end] |- _ => set (L2 := X) in * end.
  assert (Hn2 : l_next L2 p = None) by (unfold L2; cbn; unfold upd; now rewrite Nat.eqb_refl).
  assert (Hp2 : l_prev L2 n = Some p) by (unfold L2; cbn; unfold upd; now rewrite Nat.eqb_refl).
  assert (Hbad : ~ consistent L2).
  { intros C2. apply (c_next_prev L2 C2) in Hp2. congruence. }
  destruct (l_next L1 p) as [nx|] eqn:En.
  - assert (Hv : l_prev L1 nx = Some p) by (now apply (c_next_prev L1 C1)).
    assert (Hnx : nx <> n) by (intros ->; congruence).
    assert (Hv2 : l_prev L2 nx = Some p) by (unfold L2; cbn; unfold upd; destruct (Nat.eqb_spec nx n); easy).
    unfold u_borrow_mut in E. destruct (mem nx (n :: p :: G)); cbn [seq_] in E.
    + injection E as <- _. contradiction.
    + rewrite Hv2, Nat.eqb_refl in E. discriminate.
  - destruct (l_parent L2 p) as [pp|]; [|discriminate]. unfold u_borrow_mut in E.
    destruct (mem pp (n :: p :: G)); cbn [seq_] in E; [|discriminate]. injection E as <- _. contradiction.
Qed.

Theorem insert_before_end G p n L : consistent L -> move_end (p = n \/ In p G \/ In n G) L (insert_before G p n L) (u_insert_before G p n L).
Proof.
  intros C. destruct (Nat.eq_dec p n) as [Hpn|Hpn].
  { subst p. split; [apply unc_insert_before|]. intros L' q E. unfold u_insert_before in E. rewrite Nat.eqb_refl in E. injection E as <- _. tauto. }
  apply move_early; [apply unc_insert_before|]. intros L' q E C'.
  destruct (u_detach_data (n :: p :: G) n L) as [L1 [[]|q1]] eqn:ED.
  2:{ cbn [seq_] in E. injection E as <- _. now apply (detach_data_panic _ _ _ _ _ C ED). }
  cbn [seq_] in E. destruct (detach_data_done _ _ _ _ C ED) as (C1 & Q1 & P1 & N1).
  cbv zeta in E.
  change (l_prev (set_next n (Some p) (set_parent n (l_parent (set_root n (l_root L1 p) L1) p) (set_root n (l_root L1 p) L1))) p) with (l_prev L1 p) in E.
  destruct (l_prev L1 p) as [pv|] eqn:Epv.
  - match goal with H : u_borrow_mut _ _ ?X _ = _ |- _ => set (L2 := X) in * end.
    assert (Hv : l_next L1 pv = Some p) by (now apply (c_next_prev L1 C1)).
    assert (Hpv : pv <> n) by (intros ->; congruence).
    assert (Hv2 : l_next L2 pv = Some p) by (unfold L2; cbn; unfold upd; destruct (Nat.eqb_spec pv n); easy).
    assert (Hn2 : l_prev L2 n = Some pv).
    { unfold L2; cbn; unfold upd. destruct (Nat.eqb_spec n p); [congruence|]. now rewrite Nat.eqb_refl. }
    unfold u_borrow_mut in E. destruct (mem pv (p :: G)).
    + injection E as <- _. apply (c_next_prev L2 C') in Hn2. congruence.
    + rewrite Hv2, Nat.eqb_refl in E. discriminate.
  - match goal with H : (match l_parent ?X p with _ => _ end) = _ |- _ => set (L2 := X) in * end.
    assert (Hv2 : l_prev L2 p = Some n) by (unfold L2; cbn; unfold upd; now rewrite Nat.eqb_refl).
    assert (Hpp : l_parent L2 p = l_parent L1 p) by (unfold L2; cbn; unfold upd; destruct (Nat.eqb_spec p n); easy).
    destruct (l_parent L2 p) as [pp|] eqn:Epp; [|discriminate]. unfold u_borrow_mut in E.
    destruct (mem pp (p :: G)); [|discriminate]. injection E as <- _.
    assert (Hf : l_first L1 pp = Some p) by (apply (c_head L1 C1); congruence).
    assert (Hf2 : l_first L2 pp = Some p) by (unfold L2; exact Hf).
    apply (c_first L2 C') in Hf2. destruct Hf2. congruence.
Qed.
