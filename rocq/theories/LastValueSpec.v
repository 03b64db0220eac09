(* Specification: the attribute that a call sets or removes. *)
From Coq Require Import List PeanoNat.
From Verif Require Import Base Ids Links Tree Data Attrs Slab NodeApi Doc History.

(* The node and the name of the attribute that a call sets or removes. *)
Definition concerns (o : op) : option (nid * aname) :=
  match o with
  | OSetAttribute n a => Some (n, a_name a)
  | ORemoveAttribute n x => Some (n, x)
  | _ => None
  end.
