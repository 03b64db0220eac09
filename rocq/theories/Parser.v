(* Model of /repo/src/parser/mod.rs.

   The crates below it are parameters: roxmltree gives the XML tree ([xml]), simplecss gives rules
   and declarations ([rule], [p_sheet], [p_declarations]), svgtypes parses values ([values]).
   Simplifications: no positions of values (they only occur in warnings), no warnings. *)
From Coq Require Import String List Bool PeanoNat NArith ZArith.
From Coq Require Import SpecFloat.
From Verif Require Import Base Ids Links Tree Iter Data Attrs Slab NodeApi Doc Names Types Text.
Import ListNotations.
Open Scope string_scope.
Open Scope nat_scope.
Open Scope list_scope.

(* roxmltree::Attribute: namespace, local name, value. *)
Record xattr := mkXattr { x_ns : option str; x_name : str; x_value : str }.

(* roxmltree::Node: an element with namespace, local name, attributes and children; a text; a
   comment; a processing instruction. *)
Inductive xml :=
| XmlElement (ns : option str) (local : str) (attrs : list xattr) (kids : list xml)
| XmlText (s : str)
| XmlComment (s : str)
| XmlOther.

(* svgtypes::Paint. *)
Inductive paint := PtNone | PtInherit | PtCurrentColor | PtColor (c : color) | PtIri (iri : str) (fb : option fallback).

(* simplecss::Rule: the selector as a predicate on the elements of the XML tree (given by the
   top-level nodes and the path to the element), and the declarations (name, value). *)
Record rule := mkRule {
  r_matches : list xml -> list nat -> bool;
  r_declarations : list (str * str)
}.

(* The functions of the crates svgtypes and simplecss the parser calls; None is an error.  The path
   parser yields segments and errors one by one; payloads are opaque. *)
Record values := mkValues {
  p_iri : str -> option str;                      (* Stream::parse_iri *)
  p_func_iri : str -> option str;                 (* Stream::parse_func_iri *)
  p_paint : str -> option paint;                  (* Paint::from_str *)
  p_length : str -> option length_;               (* Length::from_str *)
  p_length_list : str -> option payload;          (* LengthList::from_str *)
  p_number : str -> option (f64 * bool);          (* Stream::parse_number, Stream::at_end *)
  p_number_list : str -> option payload;          (* NumberList::from_str *)
  p_color : str -> option color;                  (* Color::from_str *)
  p_points : str -> option payload;               (* Points::from_str *)
  p_segments : str -> list (option N);            (* PathParser *)
  p_path : list N -> payload;                     (* Path(data) *)
  p_transform : str -> option payload;            (* Transform::from_str *)
  p_angle : str -> option payload;                (* Angle::from_str *)
  p_viewbox : str -> option payload;              (* ViewBox::from_str *)
  p_ratio : str -> option payload;                (* AspectRatio::from_str *)
  p_no_numbers : payload -> bool;                 (* NumberList::is_empty *)
  p_no_lengths : payload -> bool;                 (* LengthList::is_empty *)
  p_no_path : payload -> bool;                    (* Path::is_empty *)
  p_identity : payload -> bool;                   (* Transform::is_default *)
  p_declarations : str -> list (str * str);       (* simplecss::DeclarationTokenizer *)
  p_sheet : list str -> list rule                 (* StyleSheet::parse_more, one call after the other *)
}.

(* Link, parser/mod.rs:17-22. *)
Record link := mkLink { l_attr : aid; l_iri : str; l_fallback : option fallback; l_node : nid }.

(* The document and the links (parser/mod.rs:24-27), which are changed together. *)
Definition pstate := (dom * list link)%type.

(* ParserError, parser/error.rs; the other variants are never built by the parser. *)
Inductive perror := NoSvgElement | RoXmlError.
(* Result<A, ParserError>. *)
Inductive presult (A : Type) :=
| POk (a : A)
| PErr (e : perror).
Arguments POk {A} a.
Arguments PErr {A} e.

(* Names of namespaces, parser/mod.rs:87 and 103-108. *)
Definition ns_svg : str := lit "http://www.w3.org/2000/svg".
Definition ns_xlink : str := lit "http://www.w3.org/1999/xlink".
Definition ns_xml : str := lit "http://www.w3.org/XML/1998/namespace".

(* str::trim. *)
Fixpoint strip_left (s : str) : str :=
  match s with
  | [] => []
  | c :: t => if is_white c then strip_left t else s
  end.
Definition strip (s : str) : str := rev (strip_left (rev (strip_left s))).

(* f64_bound, parser/mod.rs:273-281. *)
Definition f64_bound (min val max : f64) : f64 :=
  if SFltb max val then max else if SFltb val min then min else val.

(* 0.0 and 1.0. *)
Definition f_zero : f64 := S754_zero false.
Definition f_one : f64 := S754_finite false 4503599627370496 (-52).

(* parse_number, parser/mod.rs:633-642. *)
Definition parse_number (P : values) (s : str) : option f64 :=
  match p_number P s with
  | Some (n, true) => Some n
  | _ => None
  end.

(* The outcome of _parse_svg_attribute_value: Ok(Some(v)), Ok(None), Err, or Ok(None) after
   links.append(aid, iri, fallback, node). *)
Inductive outcome :=
| OValue (v : avalue)
| ONothing
| OInvalid
| OLink (iri : str) (fb : option fallback).

(* `T::from_str(value)?` and a constructor. *)
Definition required {A} (o : option A) (f : A -> avalue) : outcome :=
  match o with Some a => OValue (f a) | None => OInvalid end.

(* `match Paint::from_str(value)?`, parser/mod.rs:402-412 and 418-428. *)
Definition paint_outcome (o : option paint) : outcome :=
  match o with
  | None => OInvalid
  | Some PtNone => OValue VNone
  | Some PtInherit => OValue VInherit
  | Some PtCurrentColor => OValue VCurrentColor
  | Some (PtColor c) => OValue (VColor c)
  | Some (PtIri iri fb) => OLink iri fb
  end.

(* The loop over path segments up to the first error, parser/mod.rs:481-497. *)
Fixpoint valid_segments (l : list (option N)) : list N :=
  match l with
  | Some x :: t => x :: valid_segments t
  | _ => []
  end.

Definition eqs (value : str) (s : string) : bool := str_eqb value (lit s).

(* The match of _parse_svg_attribute_value, parser/mod.rs:298-630, on the trimmed value. *)
Definition attribute_outcome (P : values) (e : eid) (a : aid) (value : str) : outcome :=
  match a with
  | A_Href =>
      match p_iri P value with
      | Some iri => OLink iri None
      | None => OValue (VString value)
      end
  | A_X | A_Y | A_Dx | A_Dy =>
      match e with
      | E_AltGlyph | E_Text | E_Tref | E_Tspan => required (p_length_list P value) VLengthList
      | _ => required (p_length P value) VLength
      end
  | A_X1 | A_Y1 | A_X2 | A_Y2 | A_R | A_Rx | A_Ry | A_Cx | A_Cy | A_Fx | A_Fy | A_RefX | A_RefY
  | A_Width | A_Height | A_MarkerWidth | A_MarkerHeight | A_StartOffset => required (p_length P value) VLength
  | A_Offset =>
      match p_length P value with
      | Some l => match len_unit l with
                  | UNone | UPercent => OValue (VLength l)
                  | _ => OInvalid
                  end
      | None => OInvalid
      end
  | A_StrokeDashoffset | A_StrokeWidth =>
      if eqs value "inherit" then OValue VInherit else required (p_length P value) VLength
  | A_StrokeMiterlimit =>
      if eqs value "inherit" then OValue VInherit else required (parse_number P value) VNumber
  | A_Opacity | A_FillOpacity | A_FloodOpacity | A_StrokeOpacity | A_StopOpacity =>
      if eqs value "inherit" then OValue VInherit
      else required (parse_number P value) (fun n => VNumber (f64_bound f_zero n f_one))
  | A_K1 | A_K2 | A_K3 | A_K4 =>
      required (parse_number P value) (fun n => VNumber (f64_bound f_zero n f_one))
  | A_StrokeDasharray =>
      if eqs value "none" then OValue VNone
      else if eqs value "inherit" then OValue VInherit
      else required (p_length_list P value) VLengthList
  | A_Fill =>
      match e with
      | E_Set | E_Animate | E_AnimateColor | E_AnimateMotion | E_AnimateTransform => OValue (VString value)
      | _ => paint_outcome (p_paint P value)
      end
  | A_Stroke => paint_outcome (p_paint P value)
  | A_ClipPath | A_Filter | A_Marker | A_MarkerEnd | A_MarkerMid | A_MarkerStart | A_Mask =>
      if eqs value "none" then OValue VNone
      else if eqs value "inherit" then OValue VInherit
      else match p_func_iri P value with
           | Some iri => OLink iri None
           | None => OInvalid
           end
  | A_Color =>
      if eqs value "inherit" then OValue VInherit else required (p_color P value) VColor
  | A_LightingColor | A_FloodColor | A_StopColor =>
      if eqs value "inherit" then OValue VInherit
      else if eqs value "currentColor" then OValue VCurrentColor
      else required (p_color P value) VColor
  | A_StdDeviation | A_BaseFrequency | A_Rotate => required (p_number_list P value) VNumberList
  | A_Points => required (p_points P value) VPoints
  | A_D => OValue (VPath (p_path P (valid_segments (p_segments P value))))
  | A_Transform | A_GradientTransform | A_PatternTransform =>
      match p_transform P value with
      | Some ts => if p_identity P ts then ONothing else OValue (VTransform ts)
      | None => OInvalid
      end
  | A_FontSize =>
      match p_length P value with
      | Some l => OValue (VLength l)
      | None => if eqs value "inherit" then OValue VInherit else OValue (VString value)
      end
  | A_FontSizeAdjust =>
      if eqs value "none" then OValue VNone
      else if eqs value "inherit" then OValue VInherit
      else required (parse_number P value) VNumber
  | A_Display | A_PointerEvents | A_TextDecoration =>
      if eqs value "none" then OValue VNone
      else if eqs value "inherit" then OValue VInherit
      else OValue (VString value)
  | A_ClipRule | A_ColorInterpolation | A_ColorInterpolationFilters | A_ColorProfile | A_ColorRendering
  | A_Direction | A_DominantBaseline | A_EnableBackground | A_FillRule | A_FontFamily | A_FontStretch
  | A_FontStyle | A_FontVariant | A_FontWeight | A_ImageRendering | A_Kerning | A_Overflow
  | A_ShapeRendering | A_StrokeLinecap | A_StrokeLinejoin | A_TextAnchor | A_TextRendering
  | A_UnicodeBidi | A_Visibility | A_WritingMode =>
      if eqs value "inherit" then OValue VInherit else OValue (VString value)
  | A_LetterSpacing | A_WordSpacing =>
      if eqs value "inherit" then OValue VInherit
      else if eqs value "normal" then OValue (VString value)
      else required (p_length P value) VLength
  | A_BaselineShift =>
      if eqs value "inherit" then OValue VInherit
      else if eqs value "baseline" || eqs value "sub" || eqs value "super" then OValue (VString value)
      else required (p_length P value) VLength
  | A_Orient =>
      if eqs value "auto" then OValue (VString value) else required (p_angle P value) VAngle
  | A_GlyphOrientationHorizontal =>
      if eqs value "inherit" then OValue VInherit else required (p_angle P value) VAngle
  | A_GlyphOrientationVertical =>
      if eqs value "inherit" then OValue VInherit
      else if eqs value "auto" then OValue (VString value)
      else required (p_angle P value) VAngle
  | A_ViewBox => required (p_viewbox P value) VViewBox
  | A_PreserveAspectRatio => required (p_ratio P value) VAspectRatio
  | _ => OValue (VString value)
  end.

(* _parse_svg_attribute_value, parser/mod.rs:283-631: the value is trimmed except for 'unicode'. *)
Definition parse_value (P : values) (e : eid) (a : aid) (value : str) : outcome :=
  attribute_outcome P e a (if aid_eqb a A_Unicode then value else strip value).

(* The guards of parser/mod.rs:217-219. *)
Definition dropped (P : values) (v : avalue) : bool :=
  match v with
  | VNumberList p => p_no_numbers P p
  | VLengthList p => p_no_lengths P p
  | VPath p => p_no_path P p
  | _ => false
  end.

(* parse_svg_attribute_value, parser/mod.rs:204-231, with node.tag_id().unwrap() of line 293.  It
   never returns an error. *)
Definition parse_svg_attribute_value (P : values) (a : aid) (value : str) (node : nid) (s : pstate) : res pstate :=
  e <- unwrap (tag_id (fst s) node) ;;
  match parse_value P e a value with
  | OValue v => if dropped P v then Ok s
                else D <- set_attribute node (mkAttr (QId a) v) (fst s) ;; Ok (D, snd s)
  | ONothing | OInvalid => Ok s
  | OLink iri fb => Ok (fst s, snd s ++ [mkLink a iri fb node])
  end.

(* parse_svg_attribute, parser/mod.rs:181-202. *)
Definition parse_svg_attribute (P : values) (a : aid) (value : str) (node : nid) (s : pstate) : res pstate :=
  match a with
  | A_Id => D <- set_id node value (fst s) ;; Ok (D, snd s)
  | A_Style | A_Class => Ok s
  | _ => parse_svg_attribute_value P a value node s
  end.

(* parse_css_attribute_value, parser/mod.rs:233-269. *)
Definition parse_css_attribute_value (P : values) (name value : str) (node : nid) (s : pstate) : res pstate :=
  o <- attribute_from_str name ;;
  match o with
  | Some id =>
      if negb (is_presentation id) && negb (aid_eqb id A_Transform) then Ok s
      else if aid_eqb id A_Marker then
        s <- parse_svg_attribute_value P A_MarkerStart value node s ;;
        s <- parse_svg_attribute_value P A_MarkerMid value node s ;;
        parse_svg_attribute_value P A_MarkerEnd value node s
      else parse_svg_attribute_value P id value node s
  | None => Ok s
  end.

(* A loop whose body changes the state. *)
Fixpoint for_each {A S} (body : A -> S -> res S) (l : list A) (s : S) : res S :=
  match l with
  | [] => Ok s
  | x :: t => s <- body x s ;; for_each body t s
  end.

(* parse_style_attribute, parser/mod.rs:644-662. *)
Definition parse_style_attribute (P : values) (value : str) (node : nid) (s : pstate) : res pstate :=
  for_each (fun d s =>
    o <- attribute_from_str (fst d) ;;
    match o with
    | Some id => if is_presentation id || aid_eqb id A_Transform
                 then parse_svg_attribute_value P id (snd d) node s else Ok s
    | None => Ok s
    end) (p_declarations P value) s.

Definition ostr_eqb (a b : option str) : bool :=
  match a, b with
  | Some x, Some y => str_eqb x y
  | None, None => true
  | _, _ => false
  end.

(* attr.namespace(), parser/mod.rs:103-109. *)
Definition known_ns (ns : option str) : bool :=
  match ns with
  | None => true
  | Some s => str_eqb s ns_svg || str_eqb s ns_xlink || str_eqb s ns_xml
  end.

(* The loop over XML attributes, parser/mod.rs:102-115. *)
Definition parse_attributes (P : values) (attrs : list xattr) (node : nid) (s : pstate) : res pstate :=
  for_each (fun x s =>
    if known_ns (x_ns x) then
      o <- attribute_from_str (x_name x) ;;
      match o with
      | Some a => parse_svg_attribute P a (x_value x) node s
      | None => Ok s
      end
    else Ok s) attrs s.

(* The loop over the rules of the style sheet, parser/mod.rs:117-125. *)
Definition parse_rules (P : values) (rules : list rule) (top : list xml) (path : list nat) (node : nid) (s : pstate)
  : res pstate :=
  for_each (fun r s =>
    if r_matches r top path
    then for_each (fun d s => parse_css_attribute_value P (fst d) (snd d) node s) (r_declarations r) s
    else Ok s) rules s.

(* roxmltree::Node::attribute_node and attribute with a plain name: the attribute without
   namespace. *)
Definition plain_attribute (name : str) (attrs : list xattr) : option str :=
  option_map x_value (find (fun x => ostr_eqb (x_ns x) None && str_eqb (x_name x) name) attrs).

(* parent.append(n). *)
Definition append_node (p n : nid) (s : pstate) : res pstate :=
  L <- append [] p n (lk (fst s)) ;; Ok (with_lk L (fst s), snd s).

(* create_node and append, parser/mod.rs:146-157. *)
Definition add_leaf (ty : ntype) (text : str) (p : nid) (s : pstate) : res pstate :=
  r <- create_node ty text (fst s) ;; append_node p (fst r) (snd r, snd s).

(* The check at the end of process_node, parser/mod.rs:168-176. *)
Definition check_first (p : nid) (s : pstate) : res (presult pstate) :=
  let D := fst s in
  if is_root D p then
    l <- children_list (enough D) (lk D) (children (lk D) (droot D)) ;;
    match filter_svg D l with
    | (id, _) :: _ => Ok (if eid_eqb id E_Svg then POk s else PErr NoSvgElement)
    | [] => Ok (POk s)
    end
  else Ok (POk s).

(* White text is kept in these elements, parser/mod.rs:139-151. *)
Definition keeps_white (o : option eid) : bool :=
  match o with Some E_Text | Some E_Tspan | Some E_Tref => true | _ => false end.

(* process_node, parser/mod.rs:77-179.  [path] is the position of [x] below the nodes [top]. *)
Fixpoint process_node (P : values) (rules : list rule) (top : list xml) (path : list nat) (x : xml) (p : nid)
  (s : pstate) : res (presult pstate) :=
  match x with
  | XmlElement ns local attrs kids =>
      if negb (ostr_eqb ns (Some ns_svg)) then Ok (POk s) else
      o <- element_from_str local ;;
      match o with
      | None => Ok (POk s)
      | Some id =>
          r <- create_element (QId id) (fst s) ;;
          let e := fst r in
          s <- parse_attributes P attrs e (snd r, snd s) ;;
          s <- parse_rules P rules top path e s ;;
          s <- match plain_attribute (lit "style") attrs with
               | Some v => parse_style_attribute P v e s
               | None => Ok s
               end ;;
          s <- append_node p e s ;;
          r <- (fix go i l s :=
                  match l with
                  | [] => Ok (POk s)
                  | c :: t =>
                      r <- process_node P rules top (path ++ [i]) c e s ;;
                      match r with
                      | POk s => go (S i) t s
                      | PErr er => Ok (PErr er)
                      end
                  end) 0 kids s ;;
          match r with
          | POk s => check_first p s
          | PErr er => Ok (PErr er)
          end
      end
  | XmlText text =>
      s <- (if blank_str text then
              if keeps_white (tag_id (fst s) p) then add_leaf NText text p s else Ok s
            else add_leaf NText text p s) ;;
      check_first p s
  | XmlComment text => s <- add_leaf NComment text p s ;; check_first p s
  | XmlOther => check_first p s
  end.

(* The loop of parse_svg over the top-level nodes, parser/mod.rs:56-58; the same loop as inside of
   process_node. *)
Fixpoint process_nodes (P : values) (rules : list rule) (top : list xml) (path : list nat) (i : nat) (l : list xml)
  (p : nid) (s : pstate) : res (presult pstate) :=
  match l with
  | [] => Ok (POk s)
  | c :: t =>
      r <- process_node P rules top (path ++ [i]) c p s ;;
      match r with
      | POk s => process_nodes P rules top path (S i) t p s
      | PErr er => Ok (PErr er)
      end
  end.

(* resolve_css, parser/mod.rs:744-763: the strings given to parse_more, in order.
   node.text() is the text of the first child, if that is a text node. *)
Definition style_text (attrs : list xattr) (kids : list xml) : list str :=
  match plain_attribute (lit "type") attrs with
  | Some ty => if str_eqb ty (lit "text/css")
               then match kids with XmlText s :: _ => [s] | _ => [] end else []
  | None => match kids with XmlText s :: _ => [s] | _ => [] end
  end.
Fixpoint css_texts (x : xml) : list str :=
  match x with
  | XmlElement _ local attrs kids =>
      (if str_eqb local (lit "style") then style_text attrs kids else []) ++ flat_map css_texts kids
  | _ => []
  end.
Definition resolve_css (P : values) (top : list xml) : list rule := p_sheet P (flat_map css_texts top).

(* doc.root().descendants().find(..), parser/mod.rs:666. *)
Fixpoint find_descendant (fuel : nat) (D : dom) (f : nid -> bool) (it : traverse_it) : res (option nid) :=
  match fuel with
  | O => Diverge
  | S fl =>
      r <- descendants_next fuel (lk D) it ;;
      match r with
      | (Some n, it') => if f n then Ok (Some n) else find_descendant fl D f it'
      | (None, _) => Ok None
      end
  end.

(* The value for a reference that cannot be resolved, parser/mod.rs:689-707. *)
Definition unresolved (d : link) : avalue :=
  match l_fallback d with
  | Some FNone => VNone
  | Some FCurrentColor => VCurrentColor
  | Some (FColor c) => VColor c
  | None =>
      if aid_eqb (l_attr d) A_Fill then VNone
      else if aid_eqb (l_attr d) A_Href then VString (lit "#" ++ l_iri d)
      else VString (lit "url(#" ++ l_iri d ++ lit ")")
  end.

(* The body of resolve_links, parser/mod.rs:666-710; both errors of set_attribute_checked only give
   a warning. *)
Definition resolve_link (d : link) (D : dom) : res dom :=
  o <- find_descendant (2 * enough D) D (fun n => str_eqb (id_of D n) (l_iri d)) (traverse (droot D)) ;;
  match o with
  | Some node =>
      r <- set_attribute_checked (l_node d)
             (if aid_eqb (l_attr d) A_Fill || aid_eqb (l_attr d) A_Stroke
              then mkAttr (QId (l_attr d)) (VPaint node (l_fallback d))
              else attr_from_node (QId (l_attr d)) node) D ;;
      Ok (fst r)
  | None => set_attribute (l_node d) (mkAttr (QId (l_attr d)) (unresolved d)) D
  end.

(* resolve_links, parser/mod.rs:664-712. *)
Definition resolve_links (links : list link) (D : dom) : res dom := for_each resolve_link links D.

(* parse_svg without the text processing, parser/mod.rs:46-70, on the XML tree; None is an error of
   roxmltree. *)
Definition is_style (D : dom) (n : nid) : bool := has_tag_name D n (QId E_Style).
Definition parse_tree (P : values) (top : list xml) : res (presult dom) :=
  D <- new_document ;;
  r <- process_nodes P (resolve_css P top) top [] 0 top (droot D) (D, []) ;;
  match r with
  | PErr er => Ok (PErr er)
  | POk s =>
      o <- svg_element (fst s) ;;
      match o with
      | None => Ok (PErr NoSvgElement)
      | Some _ =>
          r <- drain (droot (fst s)) is_style (fst s) ;;
          D <- resolve_links (snd s) (fst r) ;;
          Ok (POk D)
      end
  end.

(* parse_svg, parser/mod.rs:46-75. *)
Definition parse_svg (P : values) (doc : option (list xml)) : res (presult dom) :=
  match doc with
  | None => Ok (PErr RoXmlError)
  | Some top =>
      r <- parse_tree P top ;;
      match r with
      | POk D => D <- prepare_text D ;; Ok (POk D)
      | PErr er => Ok (PErr er)
      end
  end.
