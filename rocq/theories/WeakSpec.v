(* Specification: programs that drop handles. *)
From Coq Require Import List Bool.
From Verif Require Import Base Links Data NodeApi Doc History LifeSpec Weak.
Import ListNotations.

(* The document holds an Rc of its root and of each node of its storage, so Weak::upgrade of a pointer to one of
   them succeeds.  Any other node may be dead at any time: whether the user has kept a handle is left open. *)
Definition owned_live (w : dom -> nid -> bool) : Prop := forall D n, owned D n -> w D n = true.

(* The documents that orderly calls lead to when weak pointers may be dead. *)
Inductive reached_dropping (w : dom -> nid -> bool) : dom -> Prop :=
| drop_new : forall D, new_document = Ok D -> reached_dropping w D
| drop_step : forall D o D', reached_dropping w D -> legal o D -> no_cycle_made o D -> orderly o D ->
    w_step w o D = Ok D' -> reached_dropping w D'.
