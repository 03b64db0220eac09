(* Specification: an XML document without what is not SVG. *)
From Coq Require Import String List Bool PeanoNat.
From Verif Require Import Base Ids Names Text Parser ParserSpec.
Import ListNotations.
Open Scope string_scope.
Open Scope nat_scope.
Open Scope list_scope.

(* An attribute of SVG: a known name without namespace or in the SVG, XLink or XML namespace. *)
Definition svg_attribute (x : xattr) : bool :=
  svg_namespace (x_ns x) && match attribute_named (x_name x) with Some _ => true | None => false end.
(* An element of SVG. *)
Definition svg_element_name (ns : option str) (local : str) : bool :=
  match ns with
  | Some s => str_eqb s (lit "http://www.w3.org/2000/svg") && match element_named local with Some _ => true | None => false end
  | None => false
  end.
(* Elements that are no SVG elements are left out with everything in them, as are attributes that are no SVG attributes,
   white text that is not directly in text, tspan or tref ([inside] is the parent), and everything that is neither element
   nor text nor comment. *)
Fixpoint only_svg (inside : option eid) (x : xml) : list xml :=
  match x with
  | XmlElement ns local attrs kids =>
      if svg_element_name ns local
      then [XmlElement ns local (filter svg_attribute attrs) (flat_map (only_svg (element_named local)) kids)] else []
  | XmlText s => if forallb is_white s && negb (white_matters inside) then [] else [XmlText s]
  | XmlComment s => [XmlComment s]
  | XmlOther => []
  end.
(* No CSS rules come from the style sheets of the document. *)
Definition no_rules (P : values) (top : list xml) : Prop := p_sheet P (sheet_texts top) = [].
(* Without the attributes of other namespaces. *)
Fixpoint own_attributes (x : xml) : xml :=
  match x with
  | XmlElement ns local attrs kids => XmlElement ns local (filter (fun a => svg_namespace (x_ns a)) attrs) (map own_attributes kids)
  | y => y
  end.
(* Without white text that is not directly in text, tspan or tref, and without processing instructions; what is in style
   elements is left as it is ([keep]). *)
Fixpoint tidy (keep : bool) (inside : option eid) (x : xml) : list xml :=
  match x with
  | XmlElement ns local attrs kids =>
      [XmlElement ns local attrs (flat_map (tidy (keep || str_eqb local (lit "style")) (element_named local)) kids)]
  | XmlText s => if negb keep && forallb is_white s && negb (white_matters inside) then [] else [XmlText s]
  | XmlComment s => [XmlComment s]
  | XmlOther => if keep then [XmlOther] else []
  end.
(* Elements that are no SVG elements are left out with everything in them, as are attributes of other namespaces, white text
   and processing instructions as above; attributes without namespace stay, because selectors can see them.  What is in
   style elements is left as it is. *)
Fixpoint svg_only (keep : bool) (inside : option eid) (x : xml) : list xml :=
  match x with
  | XmlElement ns local attrs kids =>
      if keep || svg_element_name ns local
      then [XmlElement ns local (if keep then attrs else filter (fun a => svg_namespace (x_ns a)) attrs)
              (flat_map (svg_only (keep || str_eqb local (lit "style")) (element_named local)) kids)]
      else []
  | XmlText s => if negb keep && forallb is_white s && negb (white_matters inside) then [] else [XmlText s]
  | XmlComment s => [XmlComment s]
  | XmlOther => if keep then [XmlOther] else []
  end.
(* The style sheets in elements that are left out. *)
Fixpoint hidden_sheets (x : xml) : list str :=
  match x with
  | XmlElement ns local attrs kids =>
      if svg_element_name ns local then if str_eqb local (lit "style") then [] else flat_map hidden_sheets kids
      else flat_map sheet_text (xml_nodes x)
  | _ => []
  end.
