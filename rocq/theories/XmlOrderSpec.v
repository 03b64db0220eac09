(* Specification: two XML documents that differ in the order of the attributes of elements only. *)
From Coq Require Import String List Bool PeanoNat Sorting.Permutation.
From Verif Require Import Base Ids Data NodeApi Doc Parser ParserSpec OrderSpec.
Import ListNotations.
Open Scope string_scope.
Open Scope nat_scope.
Open Scope list_scope.

(* As XML demands, no two attributes of an element have the same name and namespace; and no two attributes of an SVG
   element mean the same SVG attribute, as href and xlink:href do. *)
Definition unambiguous (ns : option str) (attrs : list xattr) : Prop :=
  NoDup (map (fun x => (x_ns x, x_name x)) attrs) /\
  (ns = Some (lit "http://www.w3.org/2000/svg") -> NoDup (map fst (svg_attributes attrs))).

Inductive reordered : xml -> xml -> Prop :=
| ro_element : forall ns local attrs attrs' kids kids', unambiguous ns attrs -> Permutation attrs attrs' ->
    reordered_all kids kids' -> reordered (XmlElement ns local attrs kids) (XmlElement ns local attrs' kids')
| ro_text : forall s, reordered (XmlText s) (XmlText s)
| ro_comment : forall s, reordered (XmlComment s) (XmlComment s)
| ro_other : reordered XmlOther XmlOther
with reordered_all : list xml -> list xml -> Prop :=
| ro_none : reordered_all [] []
| ro_more : forall x x' l l', reordered x x' -> reordered_all l l' -> reordered_all (x :: l) (x' :: l').

(* The rules of the style sheets of a document apply to the same elements of the other. *)
Definition same_matches (P : values) (top top' : list xml) : Prop :=
  forall r, In r (p_sheet P (sheet_texts top)) -> forall path, r_matches r top' path = r_matches r top path.

(* Both are parsed, and to documents that differ in the order of attributes and users only; or both are refused with the
   same error. *)
Definition parsed_alike (x y : res (presult dom)) : Prop :=
  match x, y with
  | Ok (POk D), Ok (POk D') => akin D D'
  | Ok (PErr e), Ok (PErr e') => e' = e
  | _, _ => False
  end.
