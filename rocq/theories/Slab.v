(* Model of slab::Slab<Node> (crate slab 0.4), the storage of a Document (document.rs:61).
   External crate: modelled by its documented algorithm (a vector of entries with an intrusive
   free list). *)
From Coq Require Import List Bool PeanoNat.
From Verif Require Import Base Attrs.
Import ListNotations.

(* slab::Entry. *)
Inductive entry := Occupied (n : nid) | Vacant (next : nat).

Record slab := mkSlab { s_entries : list entry; s_next : nat; s_len : nat }.

(* Slab::new. *)
Definition slab_new : slab := mkSlab [] 0 0.

(* Slab::insert: the key is [next]; pushes when it is the length of the vector, otherwise takes
   the vacant entry (an occupied one is unreachable!() in the crate). *)
Definition slab_insert (s : slab) (n : nid) : res (nat * slab) :=
  let key := s_next s in
  if Nat.eqb key (length (s_entries s)) then
    Ok (key, mkSlab (s_entries s ++ [Occupied n]) (S key) (S (s_len s)))
  else
    match nth_error (s_entries s) key with
    | Some (Vacant nx) => Ok (key, mkSlab (replace_at key (Occupied n) (s_entries s)) nx (S (s_len s)))
    | _ => Panic PSlabKey
    end.

(* Slab::get. *)
Definition slab_get (s : slab) (key : nat) : option nid :=
  match nth_error (s_entries s) key with
  | Some (Occupied n) => Some n
  | _ => None
  end.

(* Slab::remove: panics when the key is not occupied. *)
Definition slab_remove (s : slab) (key : nat) : res (nid * slab) :=
  match nth_error (s_entries s) key with
  | Some (Occupied n) =>
      Ok (n, mkSlab (replace_at key (Vacant (s_next s)) (s_entries s)) key (pred (s_len s)))
  | _ => Panic PSlabKey
  end.

(* Slab::iter_mut: occupied entries in key order. *)
Fixpoint occupied (l : list entry) : list nid :=
  match l with
  | [] => []
  | Occupied n :: t => n :: occupied t
  | Vacant _ :: t => occupied t
  end.
Definition slab_iter (s : slab) : list nid := occupied (s_entries s).
