(* Specification: when root() is right, and which insertions keep it right. *)
From Coq Require Import List Bool PeanoNat.
From Verif Require Import Base Links Tree Data NodeApi Doc History TreeSpec.
Import ListNotations.

(* root() is right in the tree with the topmost node [t]. *)
Definition root_right (t : nid) (D : dom) : Prop :=
  parent (lk D) t = None /\ forall x, top_of (lk D) x t -> root_of (lk D) x = t.

(* The node a call inserts, and its new parent. *)
Definition inserted (o : op) : option nid :=
  match o with OAppend _ n | OPrepend _ n | OInsertAfter _ n | OInsertBefore _ n => Some n | _ => None end.
Definition new_parent (o : op) (D : dom) : option nid :=
  match o with
  | OAppend p _ | OPrepend p _ => Some p
  | OInsertAfter a _ | OInsertBefore a _ => parent (lk D) a
  | _ => None
  end.

(* If the call inserts a node into the tree of [t], root() of the nodes below it is already [t].
   This is so for childless nodes, and for subtrees moved inside of the tree of [t]. *)
Definition root_ready (t : nid) (o : op) (D : dom) : Prop :=
  forall n p x, inserted o = Some n -> new_parent o D = Some p -> top_of (lk D) p t ->
    above (lk D) n x -> x <> n -> root_of (lk D) x = t.

(* Histories of such calls for the root node, which itself is never inserted. *)
Inductive reachable_ready : dom -> Prop :=
| ready_new : forall D, new_document = Ok D -> reachable_ready D
| ready_step : forall D o D', reachable_ready D -> legal o D -> no_cycle_made o D ->
    inserted o <> Some (droot D) -> root_ready (droot D) o D -> step o D = Ok D' -> reachable_ready D'.
