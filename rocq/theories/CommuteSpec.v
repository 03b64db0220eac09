(* Specification: two moves of different nodes to different places. *)
From Coq Require Import List PeanoNat.
From Verif Require Import Base Ids Links Tree Data Attrs Slab NodeApi Doc History.

(* Where a node ends up: out of the tree, as the first or the last child of a node, or next to a node. *)
Inductive place : Type := Nowhere | FirstIn (p : nid) | LastIn (p : nid) | After (a : nid) | Before (a : nid).

(* The node that a call moves, and the place it moves it to. *)
Definition goes (o : op) : option (nid * place) :=
  match o with
  | ODetach n => Some (n, Nowhere)
  | OAppend p n => Some (n, LastIn p)
  | OPrepend p n => Some (n, FirstIn p)
  | OInsertAfter a n => Some (n, After a)
  | OInsertBefore a n => Some (n, Before a)
  | _ => None
  end.

(* The node next to which a place is. *)
Definition beside (a : place) : option nid := match a with After x | Before x => Some x | _ => None end.

(* Two calls move different nodes, neither of them next to the node that the other one moves, and not to the same
   place in the tree. *)
Definition apart_moves (o1 o2 : op) : Prop :=
  exists n m a b, goes o1 = Some (n, a) /\ goes o2 = Some (m, b) /\ n <> m /\ beside a <> Some m /\ beside b <> Some n /\
    (a = b -> a = Nowhere).
