(* The last value counts. *)
From Coq Require Import List Bool PeanoNat NArith Lia Sorting.Permutation.
From Verif Require Import Base Ids Links Tree ForestSpec TreeSpec ListFacts ForestFacts TreeProofs TreeApi PruneFacts Data Attrs Slab NodeApi Doc
  AttrFacts AttrSpec DocSpec NodeSpec History InvProofs HistoryProofs ApiProofs DocApi NodeProofs UndoSpec UndoProofs LastValueSpec.
Import ListNotations.

Lemma same_nodes_both D X Y : same_nodes D X -> same_nodes D Y -> same_nodes X Y.
Proof. intros [] []. split; intros; congruence. Qed.

Lemma refused_rest D X n b : same_nodes D X -> (forall m, m <> n -> attributes X m = attributes D m) -> refused X n b = refused D n b.
Proof.
  intros N A. unfold refused. destruct (link_target (a_value b)) as [t|]; [|reflexivity]. rewrite !(sn_id _ _ N).
  destruct (str_eqb (id_of D t) []); [reflexivity|]. destruct (str_eqb (id_of D n) (id_of D t)) eqn:Ei; [reflexivity|].
  assert (Htn : t <> n) by (intros ->; rewrite (proj2 (str_eqb_eq _ _) eq_refl) in Ei; discriminate).
  unfold uses. now rewrite A.
Qed.

Lemma others_twice name l : others name (others name l) = others name l.
Proof.
  unfold others. induction l as [|x l IH]; [reflexivity|]. cbn [filter]. destruct (negb (aname_eqb (a_name x) name)) eqn:E; [|exact IH].
  cbn [filter]. now rewrite E, IH.
Qed.

Definition result_of (o : op) : list attr :=
  match o with OSetAttribute _ a => [mkAttr (a_name a) (shape (a_name a) (a_value a))] | _ => [] end.

Lemma concerns_cases D o n x D' : reachable D -> is_element D n = true -> concerns o = Some (n, x) -> step o D = Ok D' ->
  same_nodes D D' /\ attributes D' n = others x (attributes D n) ++ result_of o /\ (forall m, m <> n -> attributes D' m = attributes D m).
Proof.
  intros R He C E. destruct o; try discriminate; injection C as -> <-; cbn [step result_of] in *.
  - pose proof (set_cases D n a R He) as S. destruct (refused D n a); [congruence|].
    destruct S as (D1 & E1 & S). rewrite E in E1. injection E1 as <-. exact S.
  - destruct (remove_cases D n name R) as (D1 & E1 & S). rewrite E in E1. injection E1 as <-. now rewrite app_nil_r.
Qed.

Lemma concerns_returns D X o n x D' : reachable D -> reachable X -> is_element D n = true -> concerns o = Some (n, x) ->
  same_nodes D X -> (forall m, m <> n -> attributes X m = attributes D m) ->
  step o D = Ok D' -> exists X', step o X = Ok X'.
Proof.
  intros R RX He C N A E.
  assert (HeX : is_element X n = true) by (unfold is_element in *; now rewrite (sn_type _ _ N)).
  destruct o; try discriminate; injection C as -> <-; cbn [step] in *.
  - pose proof (set_cases D n a R He) as S. pose proof (set_cases X n a RX HeX) as S'. rewrite (refused_rest D X n a N A) in S'.
    destruct (refused D n a); [congruence|]. destruct S' as (X' & E' & _). now exists X'.
  - destruct (remove_cases X n name RX) as (X' & E' & _). now exists X'.
Qed.

Lemma last_value D o1 o2 n x D1 : reachable D -> is_element D n = true -> legal o1 D -> legal o2 D ->
  concerns o1 = Some (n, x) -> concerns o2 = Some (n, x) -> step o1 D = Ok D1 ->
  (forall D2, step o2 D1 = Ok D2 -> exists D3, step o2 D = Ok D3 /\ as_before D2 D3) /\
  (forall D3, step o2 D = Ok D3 -> exists D2, step o2 D1 = Ok D2 /\ as_before D2 D3).
Proof.
  intros R He L1 L2 C1 C2 E1.
  destruct (concerns_cases D o1 n x D1 R He C1 E1) as (N & A1 & A2).
  assert (R1 : reachable D1) by exact (reach_step D o1 D1 R L1 E1).
  assert (He1 : is_element D1 n = true) by (unfold is_element in *; now rewrite (sn_type _ _ N)).
  assert (L2' : legal o2 D1).
  { destruct L2 as (J & K). split; [|destruct o2; try discriminate; exact K].
    intros m Hm. unfold exists_node. rewrite (sn_count _ _ N). now apply J. }
  assert (N' : same_nodes D1 D) by (destruct N; split; intros; congruence).
  assert (Fin : forall D2 D3, step o2 D1 = Ok D2 -> step o2 D = Ok D3 -> as_before D2 D3).
  { intros D2 D3 E2 E3.
    destruct (concerns_cases D1 o2 n x D2 R1 He1 C2 E2) as (N2 & B1 & B2).
    destruct (concerns_cases D o2 n x D3 R He C2 E3) as (N3 & G1 & G2).
    apply same_nodes_back; [exact (reach_step D1 o2 D2 R1 L2' E2)|exact (reach_step D o2 D3 R L2 E3)| |].
    - apply (same_nodes_both D); [exact (same_nodes_trans D D1 D2 N N2)|exact N3].
    - intros m. destruct (Nat.eq_dec m n) as [->|Hm]; [|now rewrite G2, B2, A2].
      rewrite G1, B1, A1. f_equal. destruct o1; try discriminate; injection C1 as -> <-; cbn [result_of].
      + symmetry. now apply others_others.
      + now rewrite app_nil_r, others_twice. }
  split.
  - intros D2 E2. destruct (concerns_returns D1 D o2 n x D2 R1 R He1 C2 N') as (D3 & E3); [|exact E2|].
    { intros m Hm. symmetry. now apply A2. }
    exists D3. split; [exact E3|now apply Fin].
  - intros D3 E3. destruct (concerns_returns D D1 o2 n x D3 R R1 He C2 N A2 E3) as (D2 & E2). exists D2. split; [exact E2|now apply Fin].
Qed.

Lemma only_both n D D1 D2 D3 : only_node n D D1 -> only_node n D1 D2 -> only_node n D D3 -> same_node n D2 D3 -> as_before D2 D3.
Proof.
  intros [a1 a2 a3] [b1 b2 b3] [c1 c2 c3] Sn. assert (X : forall m, same_node m D2 D3).
  { intros m. destruct (Nat.eq_dec m n) as [->|Hm]; [exact Sn|]. destruct (a3 m Hm), (b3 m Hm), (c3 m Hm). split; congruence. }
  split; try (intros m _; destruct (X m); first [assumption | now rewrite c1, b1, a1 | now rewrite sm_linked]). congruence.
Qed.

Lemma last_id D n s t D1 : set_id n s D = Ok D1 ->
  exists D2 D3, set_id n t D1 = Ok D2 /\ set_id n t D = Ok D3 /\ as_before D2 D3.
Proof.
  intros E. destruct (is_element D n) eqn:He; [|rewrite (proj1 (set_id_api D n s) He) in E; discriminate].
  destruct (proj2 (set_id_api D n s) He) as (D1' & E1 & O & _ & _ & (Q1 & Q2 & Q3 & Q4 & Q5 & Q6)). rewrite E in E1. injection E1 as <-.
  assert (He' : is_element D1 n = true) by (unfold is_element in *; now rewrite Q1).
  destruct (proj2 (set_id_api D1 n t) He') as (D2 & E2 & O2 & _ & V & (R1 & R2 & R3 & R4 & R5 & R6)).
  destruct (proj2 (set_id_api D n t) He) as (D3 & E3 & O3 & _ & V' & (T1 & T2 & T3 & T4 & T5 & T6)).
  exists D2, D3. split; [exact E2|]. split; [exact E3|]. apply (only_both n D D1 D2 D3 O O2 O3). split; congruence.
Qed.
Lemma last_text D n s t D1 : set_text n s D = Ok D1 ->
  exists D2 D3, set_text n t D1 = Ok D2 /\ set_text n t D = Ok D3 /\ as_before D2 D3.
Proof.
  intros E. destruct (is_element D n) eqn:He; [rewrite (proj1 (set_text_api D n s) He) in E; discriminate|].
  destruct (proj2 (set_text_api D n s) He) as (D1' & E1 & O & _ & _ & (Q1 & Q2 & Q3 & Q4 & Q5 & Q6)). rewrite E in E1. injection E1 as <-.
  assert (He' : is_element D1 n = false) by (unfold is_element in *; now rewrite Q1).
  destruct (proj2 (set_text_api D1 n t) He') as (D2 & E2 & O2 & _ & V & (R1 & R2 & R3 & R4 & R5 & R6)).
  destruct (proj2 (set_text_api D n t) He) as (D3 & E3 & O3 & _ & V' & (T1 & T2 & T3 & T4 & T5 & T6)).
  exists D2, D3. split; [exact E2|]. split; [exact E3|]. apply (only_both n D D1 D2 D3 O O2 O3). split; congruence.
Qed.
Lemma last_tag D n s t D1 : t <> QName [] -> set_tag_name n s D = Ok D1 ->
  exists D2 D3, set_tag_name n t D1 = Ok D2 /\ set_tag_name n t D = Ok D3 /\ as_before D2 D3.
Proof.
  intros Ht E.
  assert (He : is_element D n = true).
  { destruct (is_element D n) eqn:He; [reflexivity|]. destruct (proj1 (set_tag_api D n s) (or_introl He)). congruence. }
  assert (Hs : s <> QName []) by (intros ->; destruct (proj1 (set_tag_api D n (QName [])) (or_intror eq_refl)); congruence).
  destruct (proj2 (set_tag_api D n s) He Hs) as (D1' & E1 & O & _ & _ & (Q1 & Q2 & Q3 & Q4 & Q5 & Q6)). rewrite E in E1. injection E1 as <-.
  assert (He' : is_element D1 n = true) by (unfold is_element in *; now rewrite Q1).
  destruct (proj2 (set_tag_api D1 n t) He' Ht) as (D2 & E2 & O2 & _ & V & (R1 & R2 & R3 & R4 & R5 & R6)).
  destruct (proj2 (set_tag_api D n t) He Ht) as (D3 & E3 & O3 & _ & V' & (T1 & T2 & T3 & T4 & T5 & T6)).
  exists D2, D3. split; [exact E2|]. split; [exact E3|]. apply (only_both n D D1 D2 D3 O O2 O3). split; congruence.
Qed.

Lemma first_if_none D n a b D1 : reachable D -> legal (OSetAttributeIfNone n a) D -> is_element D n = true -> a_name b = a_name a ->
  set_attribute_if_none n a D = Ok D1 -> set_attribute_if_none n b D1 = Ok D1.
Proof.
  intros R L He Hn E. assert (R1 : reachable D1) by exact (reach_step D (OSetAttributeIfNone n a) D1 R L E).
  apply (proj1 (if_none_cases D1 n b R1)). rewrite Hn.
  destruct (in_dec (fun x y => match bool_dec (aname_eqb x y) true with
                               | left e => left (proj1 (aname_eqb_eq x y) e)
                               | right f => right (fun q => f (proj2 (aname_eqb_eq x y) q)) end)
              (a_name a) (map a_name (attributes D n))) as [Hi|Hi].
  - rewrite (proj1 (if_none_cases D n a R) Hi) in E. injection E as <-. exact Hi.
  - rewrite (proj2 (if_none_cases D n a R) Hi) in E. pose proof (set_cases D n a R He) as S.
    destruct (refused D n a); [congruence|]. destruct S as (D1' & E1 & _ & A & _). rewrite E in E1. injection E1 as <-.
    rewrite A, map_app, in_app_iff. right. now left.
Qed.
