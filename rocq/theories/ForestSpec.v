(* Specification: the DOM structure as an ordered forest.  No heap, only lists.

   [parent_of n]   the parent of a node, if any
   [siblings_of n] the full list of siblings of [n] in document order, [n] included
   [children_of n] the children in document order

   A node without parent may still have siblings (tree.rs allows insert_after on it). *)
From Coq Require Import List Bool PeanoNat.
From Verif Require Import Base.
Import ListNotations.

Record forest := mkForest {
  parent_of   : nid -> option nid;
  siblings_of : nid -> list nid;
  children_of : nid -> list nid
}.

(* The three views agree. *)
Record wf_forest (F : forest) : Prop := {
  wf_self   : forall n, In n (siblings_of F n);
  wf_nodup  : forall n, NoDup (siblings_of F n);
  wf_share  : forall n m, In m (siblings_of F n) ->
                siblings_of F m = siblings_of F n /\ parent_of F m = parent_of F n;
  wf_parent : forall n p, parent_of F n = Some p -> siblings_of F n = children_of F p;
  wf_child  : forall p c, In c (children_of F p) -> parent_of F c = Some p
}.

(* Elements next to each other in a list. *)
Fixpoint succ_in (n : nid) (l : list nid) : option nid :=
  match l with
  | [] => None
  | x :: t => if Nat.eqb x n then hd_error t else succ_in n t
  end.
Definition pred_in (n : nid) (l : list nid) : option nid := succ_in n (rev l).
Definition last_error (l : list nid) : option nid := hd_error (rev l).

(* List edits. *)
Definition rm (n : nid) (l : list nid) : list nid := filter (fun x => negb (Nat.eqb x n)) l.

Fixpoint ins_after (a b : nid) (l : list nid) : list nid :=
  match l with
  | [] => []
  | x :: t => if Nat.eqb x a then x :: b :: t else x :: ins_after a b t
  end.

Fixpoint ins_before (a b : nid) (l : list nid) : list nid :=
  match l with
  | [] => []
  | x :: t => if Nat.eqb x a then b :: x :: t else x :: ins_before a b t
  end.

(* Forest edits. *)

(* Take [n] out of its sibling list; it becomes a top level node and keeps its children. *)
Definition f_detach (n : nid) (F : forest) : forest :=
  mkForest
    (fun m => if Nat.eqb m n then None else parent_of F m)
    (fun m => if Nat.eqb m n then [n] else rm n (siblings_of F m))
    (fun p => rm n (children_of F p)).

(* Replace the child list of [p] by [l]. *)
Definition f_set_children (p : nid) (l : list nid) (F : forest) : forest :=
  mkForest
    (fun m => if mem m l then Some p else parent_of F m)
    (fun m => if mem m l then l else siblings_of F m)
    (fun q => if Nat.eqb q p then l else children_of F q).

(* Replace the sibling list of [a] by [l]. *)
Definition f_set_siblings (a : nid) (l : list nid) (F : forest) : forest :=
  mkForest
    (fun m => if mem m l then parent_of F a else parent_of F m)
    (fun m => if mem m l then l else siblings_of F m)
    (fun q => match parent_of F a with
              | Some p => if Nat.eqb q p then l else children_of F q
              | None => children_of F q
              end).

Definition f_append (p n : nid) (F : forest) : forest :=
  let F := f_detach n F in f_set_children p (children_of F p ++ [n]) F.

Definition f_prepend (p n : nid) (F : forest) : forest :=
  let F := f_detach n F in f_set_children p (n :: children_of F p) F.

Definition f_insert_after (a n : nid) (F : forest) : forest :=
  let F := f_detach n F in f_set_siblings a (ins_after a n (siblings_of F a)) F.

Definition f_insert_before (a n : nid) (F : forest) : forest :=
  let F := f_detach n F in f_set_siblings a (ins_before a n (siblings_of F a)) F.

(* [a] is [n] or an ancestor of [n]. *)
Inductive anc_or_self (F : forest) : nid -> nid -> Prop :=
| aos_self : forall n, anc_or_self F n n
| aos_up : forall a n p, parent_of F n = Some p -> anc_or_self F a p -> anc_or_self F a n.

(* No node is its own proper ancestor, and ancestor chains are bounded. *)
Definition acyclic (F : forest) : Prop :=
  exists (rank : nid -> nat) (bound : nat),
    (forall n, rank n <= bound) /\
    (forall n p, parent_of F n = Some p -> rank p < rank n).

(* The nodes whose cells change when [n] is taken out of its sibling list: its neighbours, or
   the parent where a neighbour is missing. *)
Definition adjoining (F : forest) (n : nid) : list nid :=
  match succ_in n (siblings_of F n) with
  | Some x => [x]
  | None => match parent_of F n with Some p => [p] | None => [] end
  end ++
  match pred_in n (siblings_of F n) with
  | Some x => [x]
  | None => match parent_of F n with Some p => [p] | None => [] end
  end.

(* A forest without any edge. *)
Definition empty_forest : forest := mkForest (fun _ => None) (fun n => [n]) (fun _ => []).

(* Finite ordered trees, and what it means that a subtree of the forest has that shape. *)
Inductive tree := T (n : nid) (ts : list tree).

Definition t_node (t : tree) : nid := match t with T n _ => n end.
Definition t_kids (t : tree) : list tree := match t with T _ ts => ts end.

Inductive tree_at (F : forest) : tree -> Prop :=
| tree_at_intro : forall n ts,
    children_of F n = map t_node ts ->
    Forall (tree_at F) ts ->
    tree_at F (T n ts).

(* The nodes below [n] form a finite tree. *)
Definition finite_at (F : forest) (n : nid) : Prop := exists t, t_node t = n /\ tree_at F t.

(* Nodes of a tree in document order. *)
Fixpoint preorder (t : tree) : list nid :=
  match t with T n ts => n :: flat_map preorder ts end.
