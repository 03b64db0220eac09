(* Results with explicit panics and a few list helpers used by the whole model. *)
From Coq Require Import List Bool PeanoNat NArith.
From Coq Require String Ascii.
Import ListNotations.

(* Ways in which the Rust code can panic.  The kinds are the Rust causes:
   PBorrow: RefCell borrow error; PAssert: assert!; PDebugAssert: debug_assert!;
   PUnwrap: Option/Result unwrap; PIndex: slice index; PSlabKey: slab::Slab::remove of a
   vacant key; PStr: String::drain outside of a char boundary; POverflow: integer overflow in
   the debug profile. *)
Inductive panic :=
| PBorrow | PAssert | PDebugAssert | PUnwrap | PIndex | PSlabKey | PStr | POverflow.

(* Outcome of a call: a value, a panic, or exhausted fuel (the loop did not finish within the
   given number of steps). *)
Inductive res (A : Type) :=
| Ok (a : A)
| Panic (p : panic)
| Diverge.
Arguments Ok {A} a.
Arguments Panic {A} p.
Arguments Diverge {A}.

Definition bind {A B} (m : res A) (k : A -> res B) : res B :=
  match m with
  | Ok a => k a
  | Panic p => Panic p
  | Diverge => Diverge
  end.

Notation "x <- m ;; k" := (bind m (fun x => k))
  (at level 60, m at next level, right associativity).
Notation "' pat <- m ;; k" := (bind m (fun x => match x with pat => k end))
  (at level 60, pat pattern, m at next level, right associativity).

Definition is_ok {A} (r : res A) : Prop := exists a, r = Ok a.

(* A node handle: the identity of an Rc<RefCell<NodeData>> (tree.rs:14-29, PartialEq is
   Rc::ptr_eq, tree.rs:49-55). *)
Definition nid := nat.

(* Strings are lists of Unicode scalar values. *)
Definition chr := N.
Definition str := list chr.

Fixpoint str_eqb (a b : str) : bool :=
  match a, b with
  | [], [] => true
  | x :: a', y :: b' => N.eqb x y && str_eqb a' b'
  | _, _ => false
  end.

(* Point update of a function. *)
Definition upd {A} (f : nid -> A) (n : nid) (v : A) : nid -> A :=
  fun m => if Nat.eqb m n then v else f m.

Definition mem (n : nid) (l : list nid) : bool := existsb (Nat.eqb n) l.

Definition onid_eqb (a b : option nid) : bool :=
  match a, b with
  | None, None => true
  | Some x, Some y => Nat.eqb x y
  | _, _ => false
  end.

(* ASCII literals. *)
Definition lit (s : String.string) : str :=
  List.map Ascii.N_of_ascii (String.list_ascii_of_string s).

(* UTF-8 encoding of a scalar value and of a string (str::as_bytes, str::len). *)
Definition utf8_char (c : chr) : list N :=
  (if c <? 128 then [c]
   else if c <? 2048 then [192 + c / 64; 128 + c mod 64]
   else if c <? 65536 then [224 + c / 4096; 128 + (c / 64) mod 64; 128 + c mod 64]
   else [240 + c / 262144; 128 + (c / 4096) mod 64; 128 + (c / 64) mod 64; 128 + c mod 64])%N.

Definition utf8 (s : str) : list N := flat_map utf8_char s.

(* char: a Unicode scalar value. *)
Definition is_scalar (c : chr) : bool :=
  ((c <? 55296) || ((57343 <? c) && (c <? 1114112)))%N.
