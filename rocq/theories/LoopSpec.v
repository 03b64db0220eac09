(* Specification: drain with any closure, deep copies. *)
From Coq Require Import List.
From Verif Require Import Base Links Tree ForestSpec IterSpec Data NodeApi Doc DocSpec.
Import ListNotations.

(* All subtrees of a tree, itself among them. *)
Fixpoint subtrees (t : tree) : list tree := match t with T n ts => T n ts :: flat_map subtrees ts end.

(* In a state in between, when some of the nodes of [S] were gone but not [x], the closure answered [b] for [x]. *)
Definition answered (f : dom -> nid -> bool) (D : dom) (S : list nid) (x : nid) (b : bool) : Prop :=
  exists S1 D1, (forall y, In y S1 -> In y S) /\ ~ In x S1 /\ removed S1 D D1 /\ f D1 x = b.

(* What drain did with the trees [ts] if it removed the trees [ms]: they are whole subtrees, the closure said yes
   for the top of each and no for every node that is left. *)
Record drained_by (f : dom -> nid -> bool) (D D' : dom) (ts ms : list tree) : Prop := {
  db_sub     : forall m, In m ms -> In m (flat_map subtrees ts);
  db_yes     : forall m, In m ms -> answered f D (flat_map preorder ms) (t_node m) true;
  db_no      : forall x, In x (flat_map preorder ts) -> ~ In x (flat_map preorder ms) ->
                 answered f D (flat_map preorder ms) x false;
  db_removed : removed (flat_map preorder ms) D D'
}.
