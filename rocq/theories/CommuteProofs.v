(* Two moves of different nodes to different places give the same tree in either order. *)
From Coq Require Import List Bool PeanoNat NArith Lia Sorting.Permutation.
From Verif Require Import Base Ids Links Tree ForestSpec TreeSpec ListFacts ForestFacts TreeProofs TreeApi PruneFacts Data Attrs Slab NodeApi Doc
  AttrFacts AttrSpec DocSpec NodeSpec History InvProofs HistoryProofs ApiProofs DocApi UndoSpec UndoProofs ApartSpec Text Writer WriterSpec SameProofs CommuteSpec.
Open Scope nat_scope.
Import ListNotations.

Fixpoint ins_a (a n : nid) (l : list nid) : list nid :=
  match l with [] => [] | x :: t => if Nat.eqb x a then x :: n :: t else x :: ins_a a n t end.
Fixpoint ins_b (a n : nid) (l : list nid) : list nid :=
  match l with [] => [] | x :: t => if Nat.eqb x a then n :: x :: t else x :: ins_b a n t end.
Definition is_at (q : option nid) (p : nid) : bool := match q with Some x => Nat.eqb x p | None => false end.
Definition put (a : place) (n : nid) (q : option nid) (l : list nid) : list nid :=
  match a with
  | Nowhere => l
  | FirstIn p => if is_at q p then n :: l else l
  | LastIn p => if is_at q p then l ++ [n] else l
  | After x => ins_a x n l
  | Before x => ins_b x n l
  end.
Definition over (a : place) (F : forest) : option nid :=
  match a with Nowhere => None | FirstIn p | LastIn p => Some p | After x | Before x => parent_of F x end.

Record placed (n : nid) (a : place) (F F' : forest) : Prop := {
  pl_own : parent_of F' n = over a F;
  pl_parent : forall m, m <> n -> parent_of F' m = parent_of F m;
  pl_children : forall q, children_of F' q = put a n (Some q) (rm n (children_of F q));
  pl_chain : forall m, m <> n -> parent_of F m = None -> siblings_of F' m = put a n None (rm n (siblings_of F m));
  pl_alone : a = Nowhere -> siblings_of F' n = [n];
  pl_beside : forall x, beside a = Some x -> x <> n /\ siblings_of F' n = siblings_of F' x
}.

Lemma ins_a_mid a n l1 l2 : ~ In a l1 -> ins_a a n (l1 ++ a :: l2) = l1 ++ a :: n :: l2.
Proof.
  induction l1 as [|x l1 IH]; intros H; cbn [app ins_a]; [now rewrite Nat.eqb_refl|].
  destruct (Nat.eqb_spec x a) as [->|Hx]; [exfalso; apply H; now left|]. rewrite IH; [easy|]. intros K. apply H. now right.
Qed.
Lemma ins_b_mid a n l1 l2 : ~ In a l1 -> ins_b a n (l1 ++ a :: l2) = l1 ++ n :: a :: l2.
Proof.
  induction l1 as [|x l1 IH]; intros H; cbn [app ins_b]; [now rewrite Nat.eqb_refl|].
  destruct (Nat.eqb_spec x a) as [->|Hx]; [exfalso; apply H; now left|]. rewrite IH; [easy|]. intros K. apply H. now right.
Qed.
Lemma ins_a_out a n l : ~ In a l -> ins_a a n l = l.
Proof.
  induction l as [|x l IH]; intros H; cbn [ins_a]; [easy|].
  destruct (Nat.eqb_spec x a) as [->|Hx]; [exfalso; apply H; now left|]. rewrite IH; [easy|]. intros K. apply H. now right.
Qed.
Lemma ins_b_out a n l : ~ In a l -> ins_b a n l = l.
Proof.
  induction l as [|x l IH]; intros H; cbn [ins_b]; [easy|].
  destruct (Nat.eqb_spec x a) as [->|Hx]; [exfalso; apply H; now left|]. rewrite IH; [easy|]. intros K. apply H. now right.
Qed.

Lemma beside_placed (ins : nid -> nid -> list nid -> list nid) a n F F' :
  (forall l, ~ In a l -> ins a n l = l) -> wf_forest F -> wf_forest F' -> a <> n ->
  parent_of F' n = parent_of F a -> siblings_of F' a = ins a n (rm n (siblings_of F a)) ->
  (forall x, In x (rm n (siblings_of F a)) -> In x (siblings_of F' a)) -> In n (siblings_of F' a) ->
  moved_only n (fun q => parent_of F a = Some q) (fun m => In m (siblings_of F a)) F F' ->
  (forall q, children_of F' q = ins a n (rm n (children_of F q))) /\
  (forall m, m <> n -> parent_of F m = None -> siblings_of F' m = ins a n (rm n (siblings_of F m))) /\
  siblings_of F' n = siblings_of F' a.
Proof.
  intros Out W W' Ha P E Sub Hn M. split; [|split].
  - intros q. destruct (parent_of F a) as [r|] eqn:Er.
    + destruct (Nat.eq_dec r q) as [->|Hr].
      * rewrite <- (wf_parent F W a q Er). rewrite <- E. symmetry. apply (wf_parent F' W').
        now rewrite (mo_parent _ _ _ _ _ M a Ha).
      * rewrite (mo_children _ _ _ _ _ M q) by congruence. symmetry. apply Out.
        intros K. apply in_rm in K. destruct K as (K & _). apply (wf_child F W) in K. congruence.
    + rewrite (mo_children _ _ _ _ _ M q) by discriminate. symmetry. apply Out.
      intros K. apply in_rm in K. destruct K as (K & _). apply (wf_child F W) in K. congruence.
  - intros m Hm Em. destruct (in_dec Nat.eq_dec m (siblings_of F a)) as [Hi|Hi].
    + rewrite (proj1 (wf_share F W a m Hi)). rewrite <- E. apply (wf_share F' W'). apply Sub. apply in_rm. tauto.
    + rewrite (mo_chain _ _ _ _ _ M m Hm Em Hi). symmetry. apply Out. intros K. apply in_rm in K. destruct K as (K & _).
      apply Hi. rewrite (proj1 (wf_share F W m a K)). apply (wf_self F W).
  - apply (wf_share F' W'). exact Hn.
Qed.

Lemma goes_placed o n pl D D' : goes o = Some (n, pl) -> step o D = Ok D' ->
  (exists L, D' = with_lk L D) /\ forall F, shows (lk D) F -> exists F', shows (lk D') F' /\ placed n pl F F'.
Proof.
  intros G H. split.
  { apply (links_step o D D'); [|exact H]. destruct o; try discriminate; exact Logic.I. }
  intros F S. destruct o; try discriminate; injection G as -> <-.
  - destruct (detach_call _ _ _ H) as (_ & _ & K). destruct (K F S) as (F' & S' & (P & A & M)). exists F'. split; [exact S'|].
    split; [exact P|apply (mo_parent _ _ _ _ _ M)|intros q; apply (mo_children _ _ _ _ _ M); tauto| |now intros _|discriminate].
    intros m Hm E. apply (mo_chain _ _ _ _ _ M); tauto.
  - destruct (append_call _ _ _ _ H) as (_ & _ & K). destruct (K F S) as (F' & S' & (P & A & M)). exists F'. split; [exact S'|].
    split; [exact P|apply (mo_parent _ _ _ _ _ M)| | |discriminate|discriminate].
    + intros q. cbn [put is_at]. destruct (Nat.eqb_spec q p) as [->|Hq]; [exact A|]. now apply (mo_children _ _ _ _ _ M).
    + intros m Hm E. apply (mo_chain _ _ _ _ _ M); tauto.
  - destruct (prepend_call _ _ _ _ H) as (_ & _ & K). destruct (K F S) as (F' & S' & (P & A & M)). exists F'. split; [exact S'|].
    split; [exact P|apply (mo_parent _ _ _ _ _ M)| | |discriminate|discriminate].
    + intros q. cbn [put is_at]. destruct (Nat.eqb_spec q p) as [->|Hq]; [exact A|]. now apply (mo_children _ _ _ _ _ M).
    + intros m Hm E. apply (mo_chain _ _ _ _ _ M); tauto.
  - destruct (insert_after_call _ _ _ _ H) as (_ & _ & K). destruct (K F S) as (F' & S' & (P & (l1 & l2 & A1 & A2) & M)).
    exists F'. split; [exact S'|]. pose proof (sh_wf _ _ S) as W. pose proof (sh_wf _ _ S') as W'.
    pose proof (NoDup_rm n _ (wf_nodup F W a)) as ND.
    assert (Ha : a <> n) by (assert (K1 : In a (rm n (siblings_of F a))) by (rewrite A1; apply in_elt); apply in_rm in K1; tauto).
    assert (Hl : ~ In a l1) by (rewrite A1 in ND; apply NoDup_remove_2 in ND; rewrite in_app_iff in ND; tauto).
    destruct (beside_placed ins_a a n F F' (ins_a_out a n) W W' Ha P) as (B1 & B2 & B3); [| | |exact M|].
    + rewrite A1, A2. symmetry. now apply ins_a_mid.
    + intros x. rewrite A1, A2, !in_app_iff. cbn [In]. tauto.
    + rewrite A2, in_app_iff. cbn [In]. tauto.
    + split; [exact P|apply (mo_parent _ _ _ _ _ M)|exact B1|exact B2|discriminate|]. intros x Hx. injection Hx as <-. now split.
  - destruct (insert_before_call _ _ _ _ H) as (_ & _ & K). destruct (K F S) as (F' & S' & (P & (l1 & l2 & A1 & A2) & M)).
    exists F'. split; [exact S'|]. pose proof (sh_wf _ _ S) as W. pose proof (sh_wf _ _ S') as W'.
    pose proof (NoDup_rm n _ (wf_nodup F W a)) as ND.
    assert (Ha : a <> n) by (assert (K1 : In a (rm n (siblings_of F a))) by (rewrite A1; apply in_elt); apply in_rm in K1; tauto).
    assert (Hl : ~ In a l1) by (rewrite A1 in ND; apply NoDup_remove_2 in ND; rewrite in_app_iff in ND; tauto).
    destruct (beside_placed ins_b a n F F' (ins_b_out a n) W W' Ha P) as (B1 & B2 & B3); [| | |exact M|].
    + rewrite A1, A2. symmetry. now apply ins_b_mid.
    + intros x. rewrite A1, A2, !in_app_iff. cbn [In]. tauto.
    + rewrite A2, in_app_iff. cbn [In]. tauto.
    + split; [exact P|apply (mo_parent _ _ _ _ _ M)|exact B1|exact B2|discriminate|]. intros x Hx. injection Hx as <-. now split.
Qed.

Ltac eqs := repeat (cbn [ins_a ins_b app]; rewrite ?rm_cons; match goal with |- context [Nat.eqb ?x ?y] => destruct (Nat.eqb_spec x y); subst end;
  try congruence); cbn [ins_a ins_b app]; try congruence.
Lemma rm_ins_a m a n l : n <> m -> a <> m -> rm m (ins_a a n l) = ins_a a n (rm m l).
Proof. intros H K. induction l as [|x l IH]; [easy|]. eqs. Qed.
Lemma rm_ins_b m a n l : n <> m -> a <> m -> rm m (ins_b a n l) = ins_b a n (rm m l).
Proof. intros H K. induction l as [|x l IH]; [easy|]. eqs. Qed.
Lemma ins_aa a n b m l : a <> m -> b <> n -> a <> b -> ins_a b m (ins_a a n l) = ins_a a n (ins_a b m l).
Proof. intros H K L. induction l as [|x l IH]; [easy|]. eqs. Qed.
Lemma ins_bb a n b m l : a <> m -> b <> n -> a <> b -> ins_b b m (ins_b a n l) = ins_b a n (ins_b b m l).
Proof. intros H K L. induction l as [|x l IH]; [easy|]. eqs. Qed.
Lemma ins_ab a n b m l : a <> m -> b <> n -> ins_b b m (ins_a a n l) = ins_a a n (ins_b b m l).
Proof. intros H K. induction l as [|x l IH]; [easy|]. eqs. Qed.
Lemma ins_a_app a n m l : a <> m -> ins_a a n (l ++ [m]) = ins_a a n l ++ [m].
Proof. intros H. induction l as [|x l IH]; eqs. Qed.
Lemma ins_b_app a n m l : a <> m -> ins_b a n (l ++ [m]) = ins_b a n l ++ [m].
Proof. intros H. induction l as [|x l IH]; eqs. Qed.

Lemma rm_put m a n q l : n <> m -> beside a <> Some m -> rm m (put a n q l) = put a n q (rm m l).
Proof.
  intros H K. destruct a as [|p|p|x|x]; cbn [put beside] in *; [easy| | | |].
  - destruct (is_at q p); [|easy]. rewrite rm_cons. now destruct (Nat.eqb_spec n m).
  - destruct (is_at q p); [|easy]. rewrite rm_app, rm_single_ne by congruence. easy.
  - apply rm_ins_a; congruence.
  - apply rm_ins_b; congruence.
Qed.
Lemma is_at_eq q p r : is_at q p = true -> is_at q r = true -> p = r.
Proof. destruct q; [|discriminate]. cbn. intros H K. apply Nat.eqb_eq in H, K. congruence. Qed.
Lemma put_put m n a b q l : n <> m -> beside a <> Some m -> beside b <> Some n -> (a = b -> a = Nowhere) ->
  put b m q (put a n q l) = put a n q (put b m q l).
Proof.
  intros N Ha Hb H.
  assert (X : forall x y : nid, Some x <> Some y -> x <> y) by congruence.
  assert (Y : forall x r, x <> r -> ins_a x n (r :: l) = r :: ins_a x n l) by (intros x r K; eqs).
  destruct a as [|p|p|x|x], b as [|r|r|y|y]; cbn [put beside] in *; try easy;
    repeat match goal with |- context [is_at q ?z] => let E := fresh "E" in destruct (is_at q z) eqn:E end; try easy;
    try (exfalso; match goal with E1 : is_at q ?u = true, E2 : is_at q ?v = true |- _ =>
           assert (u = v) by exact (is_at_eq q u v E1 E2); subst v; discriminate (H eq_refl) end);
    try (eqs; fail);
    try (rewrite ?ins_a_app, ?ins_b_app by congruence; reflexivity);
    try (apply ins_ab; congruence); try (symmetry; apply ins_ab; congruence).
  - apply ins_aa; try congruence. intros ->. discriminate (H eq_refl).
  - apply ins_bb; try congruence. intros ->. discriminate (H eq_refl).
Qed.
Lemma put_alone b m n : beside b <> Some n -> put b m None [n] = [n].
Proof. intros H. destruct b as [|p|p|x|x]; cbn [put beside] in *; try easy; eqs. Qed.

Lemma placed_twice n m a b F F1 F2 G1 G2 : n <> m -> beside a <> Some m -> beside b <> Some n -> (a = b -> a = Nowhere) ->
  wf_forest F2 -> wf_forest G2 ->
  placed n a F F1 -> placed m b F1 F2 -> placed m b F G1 -> placed n a G1 G2 -> forest_eq G2 F2.
Proof.
  intros Hnm Ham Hbn Hab W W' A1 A2 B1 B2.
  assert (Oa : over a G1 = over a F).
  { destruct a as [|p|p|x|x]; cbn [over beside] in *; try easy; apply (pl_parent _ _ _ _ B1); congruence. }
  assert (Ob : over b F1 = over b F).
  { destruct b as [|p|p|x|x]; cbn [over beside] in *; try easy; apply (pl_parent _ _ _ _ A1); congruence. }
  assert (P : forall x, parent_of G2 x = parent_of F2 x).
  { intros x. destruct (Nat.eq_dec x n) as [->|Hn].
    - rewrite (pl_own _ _ _ _ B2), (pl_parent _ _ _ _ A2), (pl_own _ _ _ _ A1); [exact Oa|exact Hnm].
    - destruct (Nat.eq_dec x m) as [->|Hm].
      + rewrite (pl_parent _ _ _ _ B2), (pl_own _ _ _ _ B1), (pl_own _ _ _ _ A2); [easy|exact Hn].
      + now rewrite (pl_parent _ _ _ _ B2), (pl_parent _ _ _ _ B1), (pl_parent _ _ _ _ A2), (pl_parent _ _ _ _ A1). }
  assert (Other : forall x, x <> n -> x <> m -> parent_of F x = None -> siblings_of G2 x = siblings_of F2 x).
  { intros x Hn Hm E0. assert (E1 : parent_of F1 x = None) by now rewrite (pl_parent _ _ _ _ A1).
    assert (E2 : parent_of G1 x = None) by now rewrite (pl_parent _ _ _ _ B1).
    rewrite (pl_chain _ _ _ _ B2 x Hn E2), (pl_chain _ _ _ _ B1 x Hm E0), (pl_chain _ _ _ _ A2 x Hm E1), (pl_chain _ _ _ _ A1 x Hn E0).
    rewrite !rm_put by congruence. rewrite rm_rm. symmetry. now apply put_put. }
  apply same_forest; [exact W|exact W'|exact P| |].
  - intros q. rewrite (pl_children _ _ _ _ B2), (pl_children _ _ _ _ B1), (pl_children _ _ _ _ A2), (pl_children _ _ _ _ A1).
    rewrite !rm_put by congruence. rewrite rm_rm. symmetry. now apply put_put.
  - intros x E. destruct (Nat.eq_dec x n) as [->|Hn].
    + pose proof E as E1. rewrite (pl_parent _ _ _ _ A2) in E1 by exact Hnm. pose proof E1 as E0.
      rewrite (pl_own _ _ _ _ A1) in E0.
      destruct (beside a) as [y|] eqn:Ey.
      * assert (Py : parent_of F y = None) by (destruct a; try discriminate; injection Ey as ->; exact E0).
        destruct (pl_beside _ _ _ _ A1 y Ey) as (Hy & Q1). destruct (pl_beside _ _ _ _ B2 y Ey) as (_ & Q2).
        assert (Hym : y <> m) by congruence.
        rewrite Q2, (pl_chain _ _ _ _ A2 n Hnm E1), Q1, <- (pl_chain _ _ _ _ A2 y Hym); [now apply Other|].
        now rewrite (pl_parent _ _ _ _ A1).
      * assert (a = Nowhere) as -> by now destruct a.
        rewrite (pl_alone _ _ _ _ B2 eq_refl), (pl_chain _ _ _ _ A2 n Hnm E1), (pl_alone _ _ _ _ A1 eq_refl).
        rewrite rm_single_ne by exact Hnm. now rewrite put_alone.
    + destruct (Nat.eq_dec x m) as [->|Hm].
      * pose proof E as E0. rewrite (pl_own _ _ _ _ A2), Ob in E0.
        assert (E1 : parent_of G1 m = None) by now rewrite (pl_own _ _ _ _ B1).
        destruct (beside b) as [y|] eqn:Ey.
        -- assert (Py : parent_of F y = None) by (destruct b; try discriminate; injection Ey as ->; exact E0).
           destruct (pl_beside _ _ _ _ A2 y Ey) as (Hy & Q1). destruct (pl_beside _ _ _ _ B1 y Ey) as (_ & Q2).
           assert (Hyn : y <> n) by congruence.
           rewrite Q1, (pl_chain _ _ _ _ B2 m Hn E1), Q2, <- (pl_chain _ _ _ _ B2 y Hyn); [now apply Other|].
           now rewrite (pl_parent _ _ _ _ B1).
        -- assert (b = Nowhere) as -> by now destruct b.
           rewrite (pl_alone _ _ _ _ A2 eq_refl), (pl_chain _ _ _ _ B2 m Hn E1), (pl_alone _ _ _ _ B1 eq_refl).
           rewrite rm_single_ne by exact Hn. rewrite put_alone; [easy|exact Ham].
      * apply Other; [exact Hn|exact Hm|]. now rewrite (pl_parent _ _ _ _ A2), (pl_parent _ _ _ _ A1) in E.
Qed.

Lemma moves_commute D o1 o2 D1 D2 : reachable D -> apart_moves o1 o2 ->
  both_calls o1 o2 D = Ok D1 -> both_calls o2 o1 D = Ok D2 -> as_before D1 D2.
Proof.
  intros R (n & m & a & b & G1 & G2 & Hnm & Ham & Hbn & Hab) H1 H2. unfold both_calls in H1, H2.
  ok_bind H1 X E1. ok_bind H2 Y E2.
  destruct (reachable_shows D R) as (F & S).
  destruct (goes_placed o1 n a D X G1 E1) as ((LX & EX) & KX). destruct (KX F S) as (FX & SX & PX).
  destruct (goes_placed o2 m b X D1 G2 H1) as ((L1 & EL1) & K1). destruct (K1 FX SX) as (F1 & S1 & P1).
  destruct (goes_placed o2 m b D Y G2 E2) as ((LY & EY) & KY). destruct (KY F S) as (FY & SY & PY).
  destruct (goes_placed o1 n a Y D2 G1 H2) as ((L2 & EL2) & K2). destruct (K2 FY SY) as (F2 & S2 & P2).
  apply (links_only_back D1 D2 F1 F2); [subst; reflexivity|subst; reflexivity|exact S1|exact S2|].
  apply (placed_twice n m a b F FX F1 FY F2 Hnm Ham Hbn Hab); try assumption; [apply (sh_wf _ _ S1)|apply (sh_wf _ _ S2)].
Qed.

Lemma detaches_commute D n m : reachable D -> acyclic_dom D -> exists_node D n -> exists_node D m -> n <> m ->
  exists D1 D2, both_calls (ODetach n) (ODetach m) D = Ok D1 /\ both_calls (ODetach m) (ODetach n) D = Ok D2 /\ as_before D1 D2.
Proof.
  intros R A Hn Hm Hnm.
  assert (LG : forall x, exists_node D x -> legal (ODetach x) D).
  { intros x Hx. split; [|exact Logic.I]. intros y [<-|[]]. exact Hx. }
  assert (Q : forall x y, exists_node D x -> exists_node D y -> exists D', both_calls (ODetach x) (ODetach y) D = Ok D').
  { intros x y Hx Hy. unfold both_calls.
    destruct (proj2 (reach_detach D R x) (proj1 (proj2 (reach_no_self D R A x)))) as (X & E). rewrite E. cbn [bind].
    assert (RX : reachable X) by exact (reach_step D (ODetach x) X R (LG x Hx) E).
    assert (AX : acyclic_dom X) by exact (proj2 (cycle_exact (ODetach x) D X R A (LG x Hx) E) Logic.I).
    exact (proj2 (reach_detach X RX y) (proj1 (proj2 (reach_no_self X RX AX y)))). }
  destruct (Q n m Hn Hm) as (D1 & E1), (Q m n Hm Hn) as (D2 & E2). exists D1, D2. split; [exact E1|]. split; [exact E2|].
  apply (moves_commute D (ODetach n) (ODetach m)); try assumption.
  exists n, m, Nowhere, Nowhere. repeat split; easy.
Qed.

Lemma both_reachable o1 o2 D D' : apart_moves o1 o2 -> reachable D -> legal o1 D -> legal o2 D ->
  both_calls o1 o2 D = Ok D' -> reachable D'.
Proof.
  intros (n & m & a & b & G1 & G2 & _) R L1 L2 H. unfold both_calls in H. ok_bind H X E.
  destruct (goes_placed o1 n a D X G1 E) as ((L & EX) & _).
  apply (reach_step X o2 D'); [exact (reach_step D o1 X R L1 E)| |exact H].
  subst X. destruct o2; try discriminate; exact L2.
Qed.
Lemma apart_moves_sym o1 o2 : apart_moves o1 o2 -> apart_moves o2 o1.
Proof.
  intros (n & m & a & b & G1 & G2 & H & J1 & J2 & K). exists m, n, b, a. repeat split; try assumption; [congruence|].
  intros ->. now apply K.
Qed.
Lemma moves_written W D o1 o2 D1 D2 : reachable D -> legal o1 D -> legal o2 D -> apart_moves o1 o2 ->
  both_calls o1 o2 D = Ok D1 -> both_calls o2 o1 D = Ok D2 -> acyclic_dom D1 -> write_dom W D2 = write_dom W D1.
Proof.
  intros R L1 L2 A E1 E2 C. apply before_written; [|  |exact C|].
  - exact (both_reachable o1 o2 D D1 A R L1 L2 E1).
  - exact (both_reachable o2 o1 D D2 (apart_moves_sym _ _ A) R L2 L1 E2).
  - exact (moves_commute D o1 o2 D1 D2 R A E1 E2).
Qed.
