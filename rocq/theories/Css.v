(* Model of `impl simplecss::Element for XmlNode`, /repo/src/parser/mod.rs:714-742, and of the loop of
   simplecss 0.2 that calls it (Selector::matches).

   An element is given by the top-level nodes of the XML document and the path to it.  The tests on
   attribute values (`AttributeOperator::matches`: equal, contains, starts with, ...) are arbitrary
   functions.  Assumed of roxmltree 0.6: `prev_siblings()` starts at the node itself, `parent_element()`
   is the nearest ancestor that is an element. *)
From Coq Require Import String List Bool PeanoNat NArith.
From Verif Require Import Base Parser.
Import ListNotations.
Open Scope string_scope.
Open Scope nat_scope.
Open Scope list_scope.

(* simplecss::PseudoClass: first-child, and link, visited, hover, active, focus, lang(..). *)
Inductive pseudo := PsFirstChild | PsOther (name : str).
(* simplecss::selector::Combinator. *)
Inductive combinator := CbNone | CbDescendant | CbChild | CbAdjacentSibling.
(* simplecss::selector::SubSelector; `.a` and `#a` are attribute selectors. *)
Inductive subselector := SubAttribute (name : str) (operator : str -> bool) | SubPseudo (class : pseudo).
(* simplecss::selector::Component and Selector. *)
Record component := mkComponent { c_tag : option str; c_subs : list subselector; c_combinator : combinator }.
Definition selector := list component.

(* The node at a path: indices of children from the top. *)
Fixpoint xml_at (l : list xml) (path : list nat) : option xml :=
  match path with
  | [] => None
  | [i] => nth_error l i
  | i :: p => match nth_error l i with
              | Some (XmlElement _ _ _ kids) => xml_at kids p
              | _ => None
              end
  end.
(* roxmltree::Node::is_element. *)
Definition xml_is_element (l : list xml) (path : list nat) : bool :=
  match xml_at l path with Some (XmlElement _ _ _ _) => true | _ => false end.

(* parent_element, parser/mod.rs:715-717. *)
Definition parent_element (path : list nat) : option (list nat) :=
  match removelast path with
  | [] => None
  | p => Some p
  end.

(* roxmltree::Node::prev_siblings: the node, then its earlier siblings, the nearest first. *)
Definition prev_siblings (path : list nat) : list (list nat) :=
  match rev path with
  | [] => []
  | i :: r => map (fun j => rev r ++ [j]) (rev (seq 0 (S i)))
  end.

(* prev_sibling_element, parser/mod.rs:719-721. *)
Definition prev_sibling_element (l : list xml) (path : list nat) : option (list nat) :=
  hd_error (filter (xml_is_element l) (prev_siblings path)).

(* has_local_name, parser/mod.rs:723-725. *)
Definition has_local_name (l : list xml) (path : list nat) (name : str) : bool :=
  match xml_at l path with Some (XmlElement _ local _ _) => str_eqb local name | _ => str_eqb [] name end.

(* attribute_matches, parser/mod.rs:727-732. *)
Definition attribute_matches (l : list xml) (path : list nat) (name : str) (operator : str -> bool) : bool :=
  match xml_at l path with
  | Some (XmlElement _ _ attrs _) =>
      match plain_attribute name attrs with
      | Some value => operator value
      | None => false
      end
  | _ => false
  end.

(* pseudo_class_matches, parser/mod.rs:734-739. *)
Definition pseudo_class_matches (l : list xml) (path : list nat) (class : pseudo) : bool :=
  match class with
  | PsFirstChild => match prev_sibling_element l path with None => true | Some _ => false end
  | PsOther _ => false
  end.

(* simplecss::Selector::matches: one component, then the rest to the left of it.  The selector is given
   from right to left.  A combinator without anything to its left does not occur. *)
Definition sub_matches (l : list xml) (path : list nat) (s : subselector) : bool :=
  match s with
  | SubAttribute name operator => attribute_matches l path name operator
  | SubPseudo class => pseudo_class_matches l path class
  end.
Definition component_matches (l : list xml) (path : list nat) (c : component) : bool :=
  match c_tag c with Some tag => has_local_name l path tag | None => true end && forallb (sub_matches l path) (c_subs c).
(* The parents of an element, in the order of the loop `while let Some(e) = parent`. *)
Fixpoint parent_elements (fuel : nat) (path : list nat) : list (list nat) :=
  match fuel with
  | O => []
  | S fuel => match parent_element path with
              | Some p => p :: parent_elements fuel p
              | None => []
              end
  end.
Fixpoint matches_left (l : list xml) (s : list component) (path : list nat) : bool :=
  match s with
  | [] => true
  | c :: s =>
      component_matches l path c &&
      match c_combinator c with
      | CbNone => true
      | CbDescendant => existsb (matches_left l s) (parent_elements (List.length path) path)
      | CbChild => match parent_element path with Some p => matches_left l s p | None => false end
      | CbAdjacentSibling => match prev_sibling_element l path with Some p => matches_left l s p | None => false end
      end
  end.
Definition selector_matches (s : selector) (l : list xml) (path : list nat) : bool := matches_left l (rev s) path.

(* A rule of a style sheet, `rule.selector.matches(&XmlNode(xml_node))`, parser/mod.rs:118. *)
Definition css_rule (s : selector) (declarations : list (str * str)) : rule := mkRule (selector_matches s) declarations.
