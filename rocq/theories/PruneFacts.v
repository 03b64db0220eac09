(* Taking a set of nodes out of a forest. *)
From Coq Require Import List Bool PeanoNat Lia.
From Verif Require Import Base ForestSpec ListFacts Links Tree TreeProofs ForestFacts.
Import ListNotations.

(* every node of [S] becomes isolated; all lists lose the nodes of [S] *)
Definition without (S l : list nid) : list nid := filter (fun x => negb (mem x S)) l.

Definition f_prune (S : list nid) (F : forest) : forest :=
  mkForest
    (fun m => if mem m S then None else parent_of F m)
    (fun m => if mem m S then [m] else without S (siblings_of F m))
    (fun m => if mem m S then [] else without S (children_of F m)).

(* pointwise equal forests *)
Definition forest_eq (F1 F2 : forest) : Prop :=
  (forall m, parent_of F1 m = parent_of F2 m) /\
  (forall m, siblings_of F1 m = siblings_of F2 m) /\
  (forall m, children_of F1 m = children_of F2 m).

Lemma forest_eq_refl F : forest_eq F F.
Proof. now split. Qed.
Lemma forest_eq_sym F1 F2 : forest_eq F1 F2 -> forest_eq F2 F1.
Proof. intros (A & B & C). repeat split; intros; symmetry; auto. Qed.
Lemma forest_eq_trans F1 F2 F3 : forest_eq F1 F2 -> forest_eq F2 F3 -> forest_eq F1 F3.
Proof. intros (A & B & C) (A' & B' & C'). repeat split; intros; congruence. Qed.

Lemma wf_ext F1 F2 : forest_eq F1 F2 -> wf_forest F1 -> wf_forest F2.
Proof.
  intros (A & B & C) []. split; intros; repeat rewrite <- ?A, <- ?B, <- ?C in *; auto.
Qed.
Lemma Rep_ext L F1 F2 : forest_eq F1 F2 -> Rep L F1 -> Rep L F2.
Proof.
  intros H [W]. pose proof (wf_ext _ _ H W). destruct H as (A & B & C).
  split; intros; repeat rewrite <- ?A, <- ?B, <- ?C; auto.
Qed.
Lemma acyclic_ext F1 F2 : forest_eq F1 F2 -> acyclic F1 -> acyclic F2.
Proof.
  intros (A & _) (rank & B & Hb & Hr). exists rank, B. split; [easy|]. intros n p. rewrite <- A. apply Hr.
Qed.
Lemma tree_at_ext F1 F2 t : forest_eq F1 F2 -> tree_at F1 t -> tree_at F2 t.
Proof.
  intros H. induction t as [n ts IH] using tree_ind'. intros Ht. inversion Ht as [? ? E Hall]; subst.
  constructor.
  - destruct H as (_ & _ & C). now rewrite <- C.
  - rewrite Forall_forall in *. intros t Hin. auto.
Qed.

Lemma anc_ext F1 F2 a n : (forall m, parent_of F1 m = parent_of F2 m) -> anc_or_self F1 a n -> anc_or_self F2 a n.
Proof. intros H. induction 1; [constructor|]. apply aos_up with p; [now rewrite <- H|easy]. Qed.

Lemma in_without x S l : In x (without S l) <-> In x l /\ ~ In x S.
Proof. unfold without. rewrite filter_In, negb_true_iff, mem_not_In. tauto. Qed.

Lemma without_none S l : (forall x, In x l -> ~ In x S) -> without S l = l.
Proof.
  intros H. unfold without. induction l as [|x l IH]; cbn; [easy|].
  replace (mem x S) with false.
  - cbn. f_equal. apply IH. intros y Hy. apply H. now right.
  - symmetry. apply mem_not_In. apply H. now left.
Qed.

Lemma without_without S1 S2 l : without S2 (without S1 l) = without (S1 ++ S2) l.
Proof.
  unfold without. induction l as [|x l IH]; cbn; [easy|]. rewrite mem_app.
  destruct (mem x S1); cbn; [easy|]. destruct (mem x S2); cbn; now rewrite IH.
Qed.

Lemma without_single n l : without [n] l = rm n l.
Proof.
  unfold without, rm. apply filter_ext. intros x. rewrite mem_cons. change (mem x []) with false.
  now rewrite orb_false_r.
Qed.

Lemma mem_ext S1 S2 : (forall x, In x S1 <-> In x S2) -> forall x, mem x S1 = mem x S2.
Proof.
  intros H x. destruct (mem x S1) eqn:E.
  - apply mem_In, H, mem_In in E. now rewrite E.
  - symmetry. apply mem_not_In. rewrite <- H. now apply mem_not_In.
Qed.

Lemma f_prune_set S1 S2 F : (forall x, In x S1 <-> In x S2) -> forest_eq (f_prune S1 F) (f_prune S2 F).
Proof.
  intros H. pose proof (mem_ext S1 S2 H) as Hm.
  assert (Hw : forall l, without S1 l = without S2 l).
  { intros l. unfold without. apply filter_ext. intros x. now rewrite Hm. }
  repeat split; intros m; cbn; rewrite Hm, ?Hw; reflexivity.
Qed.

Lemma f_prune_prune S1 S2 F : forest_eq (f_prune S2 (f_prune S1 F)) (f_prune (S1 ++ S2) F).
Proof.
  repeat split; intros m; cbn; rewrite mem_app.
  - destruct (mem m S1), (mem m S2); easy.
  - destruct (mem m S1) eqn:E1, (mem m S2) eqn:E2; cbn; try easy.
    + unfold without. cbn. now rewrite E2.
    + apply without_without.
  - destruct (mem m S1) eqn:E1, (mem m S2) eqn:E2; cbn; try easy. apply without_without.
Qed.

Lemma f_prune_nil F : forest_eq (f_prune [] F) F.
Proof.
  repeat split; intros m; cbn; try easy; apply without_none; easy.
Qed.

Lemma f_prune_ext S F1 F2 : forest_eq F1 F2 -> forest_eq (f_prune S F1) (f_prune S F2).
Proof. intros (A & B & C). repeat split; intros m; cbn; now rewrite ?A, ?B, ?C. Qed.

(* detaching a leaf *)
Lemma f_detach_leaf n F : children_of F n = [] -> forest_eq (f_detach n F) (f_prune [n] F).
Proof.
  intros Hc. repeat split; intros m; cbn; rewrite mem_cons; change (mem m []) with false; rewrite orb_false_r.
  - reflexivity.
  - rewrite without_single. now destruct (Nat.eqb_spec m n) as [->|].
  - rewrite without_single. destruct (Nat.eqb_spec m n) as [->|]; [|easy]. now rewrite Hc.
Qed.

Lemma acyclic_prune S F : acyclic F -> acyclic (f_prune S F).
Proof.
  intros (rank & B & Hb & Hr). exists rank, B. split; [easy|]. intros n p. cbn.
  destruct (mem n S); [easy|]. apply Hr.
Qed.

Lemma tree_at_prune S F t : tree_at F t -> (forall x, In x (preorder t) -> ~ In x S) ->
  tree_at (f_prune S F) t.
Proof.
  induction t as [n ts IH] using tree_ind'. intros Ht Hd. inversion Ht as [? ? E Hall]; subst.
  constructor.
  - cbn. replace (mem n S) with false.
    2:{ symmetry. apply mem_not_In, Hd. now left. }
    rewrite E. apply without_none. intros x Hx. apply Hd. cbn. right.
    apply in_map_iff in Hx. destruct Hx as (t & <- & Hin). apply in_flat_map. exists t.
    split; [easy|apply preorder_self].
  - rewrite Forall_forall in *. intros t Hin. apply IH; auto. intros x Hx. apply Hd. cbn. right.
    apply in_flat_map. now exists t.
Qed.

(* outside of a pruned subtree only its top node disappears from the lists *)
Lemma prune_tree_outside F t m : wf_forest F -> tree_at F t -> ~ In m (preorder t) ->
  children_of (f_prune (preorder t) F) m = rm (t_node t) (children_of F m).
Proof.
  intros W Ht Hm. cbn. replace (mem m (preorder t)) with false by (symmetry; now apply mem_not_In).
  rewrite <- without_single. unfold without. apply filter_ext_in. intros x Hx. f_equal.
  destruct (mem x (preorder t)) eqn:E1, (mem x [t_node t]) eqn:E2; try easy.
  - exfalso. apply mem_In in E1. apply mem_not_In in E2.
    apply (preorder_iff F t x W Ht) in E1. apply (wf_child F W) in Hx.
    inversion E1 as [|? ? p Hp Ha]; subst; [apply E2; now left|].
    rewrite Hx in Hp. injection Hp as <-. apply Hm. now apply (preorder_iff F t m W Ht).
  - exfalso. apply mem_not_In in E1. apply mem_In in E2. destruct E2 as [<-|[]].
    apply E1, preorder_self.
Qed.

Lemma prune_tree_siblings F t m : wf_forest F -> tree_at F t -> ~ In m (preorder t) ->
  siblings_of (f_prune (preorder t) F) m = rm (t_node t) (siblings_of F m).
Proof.
  intros W Ht Hm. cbn. replace (mem m (preorder t)) with false by (symmetry; now apply mem_not_In).
  rewrite <- without_single. unfold without. apply filter_ext_in. intros x Hx. f_equal.
  destruct (mem x (preorder t)) eqn:E1, (mem x [t_node t]) eqn:E2; try easy.
  - exfalso. apply mem_In in E1. apply mem_not_In in E2.
    apply (preorder_iff F t x W Ht) in E1.
    inversion E1 as [|? ? p Hp Ha]; subst; [apply E2; now left|].
    destruct (wf_share F W m x Hx) as (_ & Hpm). rewrite Hp in Hpm.
    apply Hm. apply (preorder_iff F t m W Ht). now apply aos_up with p.
  - exfalso. apply mem_not_In in E1. apply mem_In in E2. destruct E2 as [<-|[]].
    apply E1, preorder_self.
Qed.
