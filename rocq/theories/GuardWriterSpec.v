(* Specification: what guards held by the user do to the writer. *)
From Coq Require Import List.
From Verif Require Import Base Ids Links ForestSpec Data Attrs NodeApi Guards GuardSpec.
Import ListNotations.

(* A node of the written tree has a RefMut, or the target of a link that is written.  An attribute `unicode`
   that is a link is not written. *)
Definition write_blocked (g : guards) (D : dom) (t : tree) : Prop :=
  exists x, held_mut g x /\
    (In x (preorder t) \/
     exists n a, In n (preorder t) /\ is_element D n = true /\ In a (attributes D n) /\
       a_name a <> QId A_Unicode /\ link_target (a_value a) = Some x).
