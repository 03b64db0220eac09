(* Model of /repo/src/attributes.rs: the attribute list. *)
From Coq Require Import List Bool PeanoNat NArith.
From Verif Require Import Base Ids Data.
Import ListNotations.

(* Attributes::get, attributes.rs:71-82. *)
Fixpoint attrs_get (l : list attr) (name : aname) : option attr :=
  match l with
  | [] => None
  | v :: t => if aname_eqb (a_name v) name then Some v else attrs_get t name
  end.

(* Attributes::get_value, attributes.rs:105-116. *)
Fixpoint attrs_get_value (l : list attr) (name : aname) : option avalue :=
  match l with
  | [] => None
  | v :: t => if aname_eqb (a_name v) name then Some (a_value v) else attrs_get_value t name
  end.

(* iter().position(p), used in attributes.rs:142 and 155 and node.rs:579. *)
Fixpoint position {A} (p : A -> bool) (l : list A) : option nat :=
  match l with
  | [] => None
  | x :: t => if p x then Some 0 else option_map S (position p t)
  end.

(* self.0[i] = x; the index comes from position. *)
Fixpoint replace_at {A} (i : nat) (x : A) (l : list A) : list A :=
  match i, l with
  | _, [] => []
  | O, _ :: t => x :: t
  | S i, y :: t => y :: replace_at i x t
  end.

(* Vec::remove. *)
Fixpoint remove_at {A} (i : nat) (l : list A) : list A :=
  match i, l with
  | _, [] => []
  | O, _ :: t => t
  | S i, y :: t => y :: remove_at i t
  end.

(* Attributes::insert, attributes.rs:136-148 (the capacity is not modelled). *)
Definition attrs_insert (l : list attr) (a : attr) : list attr :=
  match position (fun x => aname_eqb (a_name x) (a_name a)) l with
  | Some i => replace_at i a l
  | None => l ++ [a]
  end.

(* Attributes::remove, attributes.rs:151-159. *)
Definition attrs_remove (l : list attr) (name : aname) : list attr :=
  match position (fun x => aname_eqb (a_name x) name) l with
  | Some i => remove_at i l
  | None => l
  end.

(* Writing through Attributes::get_mut, attributes.rs:88-99: the first attribute with this name becomes
   [a]; both fields of Attribute are public (attribute.rs:16-18).  get_value_mut (attributes.rs:
   122-133) is the case in which the name stays the same; iter_mut (attributes.rs:190-192) is a
   sequence of such writes. *)
Fixpoint attrs_edit (l : list attr) (name : aname) (a : attr) : list attr :=
  match l with
  | [] => []
  | v :: t => if aname_eqb (a_name v) name then a :: t else v :: attrs_edit t name a
  end.

(* Attributes::contains, attributes.rs:163-168. *)
Definition attrs_contains (l : list attr) (name : aname) : bool :=
  existsb (fun a => aname_eqb (a_name a) name) l.

(* Attributes::len, attributes.rs:172-174. *)
Definition attrs_len (l : list attr) : nat := length l.

(* Attributes::is_empty, attributes.rs:178-180. *)
Definition attrs_is_empty (l : list attr) : bool :=
  match l with [] => true | _ => false end.

(* Attributes::clear, attributes.rs:195-197. *)
Definition attrs_clear (_ : list attr) : list attr := [].

(* FilterSvgAttrs::svg, attributes.rs:19-31. *)
Fixpoint attrs_svg (l : list attr) : list (aid * attr) :=
  match l with
  | [] => []
  | a :: t =>
      match a_name a with
      | QId id => (id, a) :: attrs_svg t
      | QName _ => attrs_svg t
      end
  end.
