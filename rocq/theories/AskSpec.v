(* Specification of the questions a program can ask about a node. *)
From Coq Require Import List Bool PeanoNat.
From Verif Require Import Base Ids Data Attrs NodeApi.
Import ListNotations.

(* Exactly one of the questions is answered with yes. *)
Definition only_one (answers : list bool) : Prop :=
  exists pre post, answers = pre ++ true :: post /\ forall b, In b (pre ++ post) -> b = false.

(* The names of an attribute list. *)
Definition names_of (l : list attr) : list aname := map a_name l.
