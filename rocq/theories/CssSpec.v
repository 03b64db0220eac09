(* Specification of CSS selectors (CSS 2.1, section 5) over an XML tree. *)
From Coq Require Import String List Bool PeanoNat.
From Verif Require Import Base Parser Css.
Import ListNotations.
Open Scope nat_scope.
Open Scope list_scope.

(* What one element has to fulfil. *)
Inductive condition :=
| HasAttribute (name : str) (test : str -> bool)
| FirstChild
| Dynamic (name : str). (* :hover and the like, never true of a document *)
Record compound := mkCompound { tag : option str; conditions : list condition }.

(* Selectors: E, E F, E > F, E + F. *)
Inductive css :=
| Just (c : compound)
| Descendant (s : css) (c : compound)
| Child (s : css) (c : compound)
| Adjacent (s : css) (c : compound).

(* The element at a path. *)
Definition element_at (top : list xml) (p : list nat) (local : str) (attrs : list xattr) : Prop :=
  exists ns kids, xml_at top p = Some (XmlElement ns local attrs kids).
Definition is_element_at (top : list xml) (p : list nat) : Prop := exists local attrs, element_at top p local attrs.

(* The first attribute of a name, without namespace. *)
Definition attribute_value (attrs : list xattr) (name v : str) : Prop :=
  exists pre post, attrs = pre ++ mkXattr None name v :: post /\ (forall w, ~ In (mkXattr None name w) pre).

(* Relations of positions. *)
Definition above (p q : list nat) : Prop := p <> [] /\ exists r, r <> [] /\ q = p ++ r.
Definition parent_of_path (p q : list nat) : Prop := p <> [] /\ exists i, q = p ++ [i].
Definition just_before (top : list xml) (p q : list nat) : Prop := exists r i j,
  p = r ++ [i] /\ q = r ++ [j] /\ i < j /\ is_element_at top p /\ (forall k, i < k < j -> ~ is_element_at top (r ++ [k])).
Definition first_child_of (top : list xml) (q : list nat) : Prop := exists r j,
  q = r ++ [j] /\ forall k, k < j -> ~ is_element_at top (r ++ [k]).

(* What a selector selects, given what `:first-child` and `+` mean. *)
Section Selects.
  Context (top : list xml) (first : list nat -> Prop) (before : list nat -> list nat -> Prop).
  Definition meets (q : list nat) (c : condition) : Prop :=
    match c with
    | HasAttribute name test => exists local attrs v, element_at top q local attrs /\ attribute_value attrs name v /\ test v = true
    | FirstChild => first q
    | Dynamic _ => False
    end.
  Definition fits (q : list nat) (c : compound) : Prop :=
    (forall name, tag c = Some name -> exists attrs, element_at top q name attrs) /\ (forall x, In x (conditions c) -> meets q x).
  Fixpoint selects_with (s : css) (q : list nat) : Prop :=
    match s with
    | Just c => fits q c
    | Descendant s c => fits q c /\ exists p, above p q /\ selects_with s p
    | Child s c => fits q c /\ exists p, parent_of_path p q /\ selects_with s p
    | Adjacent s c => fits q c /\ exists p, before p q /\ selects_with s p
    end.
End Selects.
Definition selects (top : list xml) : css -> list nat -> Prop := selects_with top (first_child_of top) (just_before top).

(* Selectors without `+` and `:first-child`. *)
Definition no_first (c : compound) : Prop := ~ In FirstChild (conditions c).
Fixpoint sibling_free (s : css) : Prop :=
  match s with
  | Just c => no_first c
  | Descendant s c | Child s c => sibling_free s /\ no_first c
  | Adjacent _ _ => False
  end.

(* How the CSS crate stores a selector: one component after the other. *)
Definition sub_of (x : condition) : subselector :=
  match x with
  | HasAttribute name test => SubAttribute name test
  | FirstChild => SubPseudo PsFirstChild
  | Dynamic name => SubPseudo (PsOther name)
  end.
Definition component_of (c : compound) (k : combinator) : component := mkComponent (tag c) (map sub_of (conditions c)) k.
Fixpoint stored (s : css) : selector :=
  match s with
  | Just c => [component_of c CbNone]
  | Descendant s c => stored s ++ [component_of c CbDescendant]
  | Child s c => stored s ++ [component_of c CbChild]
  | Adjacent s c => stored s ++ [component_of c CbAdjacentSibling]
  end.
