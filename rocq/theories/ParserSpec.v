(* Specification of parsing: the SVG part of an XML tree, and when a document shows it. *)
From Coq Require Import String List Bool PeanoNat NArith.
From Coq Require Import SpecFloat.
From Verif Require Import Base Ids Data NodeApi AttrSpec ForestSpec TreeSpec Names Types Text TextSpec Parser ValueSpec.
Import ListNotations.
Open Scope string_scope.
Open Scope nat_scope.
Open Scope list_scope.

(* Known element and attribute names (ElementId::from_str and AttributeId::from_str). *)
Definition element_named (s : str) : option eid := match element_from_str s with Ok o => o | _ => None end.
Definition attribute_named (s : str) : option aid := match attribute_from_str s with Ok o => o | _ => None end.

(* The SVG part of an XML tree: elements with their id and their declarations (attribute, value) in
   the order of the cascade. *)
Inductive snode :=
| SElement (e : eid) (id : str) (decls : list (aid * str)) (kids : list snode)
| SText (s : str)
| SComment (s : str).

(* The SVG attributes of an XML element, in order: known names without namespace or in the SVG, XLink
   or XML namespace. *)
Definition svg_namespace (ns : option str) : bool :=
  match ns with
  | None => true
  | Some s => existsb (str_eqb s)
      [lit "http://www.w3.org/2000/svg"; lit "http://www.w3.org/1999/xlink"; lit "http://www.w3.org/XML/1998/namespace"]
  end.
Definition svg_attributes (attrs : list xattr) : list (aid * str) :=
  flat_map (fun x => if svg_namespace (x_ns x)
                     then match attribute_named (x_name x) with Some a => [(a, x_value x)] | None => [] end
                     else []) attrs.

(* The id: the value of the last attribute called id. *)
Definition xml_id (attrs : list xattr) : str :=
  last (map snd (filter (fun d => aid_eqb (fst d) A_Id) (svg_attributes attrs))) [].

(* Presentation attributes: everything but id, class and style. *)
Definition special (a : aid) : bool := match a with A_Id | A_Class | A_Style => true | _ => false end.
Definition attribute_decls (attrs : list xattr) : list (aid * str) :=
  filter (fun d => negb (special (fst d))) (svg_attributes attrs).

(* A CSS declaration sets a presentation attribute or transform. *)
Definition css_property (name : str) : option aid :=
  match attribute_named name with
  | Some a => if is_presentation a || aid_eqb a A_Transform then Some a else None
  | None => None
  end.
(* A declaration of the style sheet; marker stands for three declarations. *)
Definition sheet_decl (d : str * str) : list (aid * str) :=
  match css_property (fst d) with
  | Some A_Marker => [(A_MarkerStart, snd d); (A_MarkerMid, snd d); (A_MarkerEnd, snd d)]
  | Some a => [(a, snd d)]
  | None => []
  end.
Definition sheet_decls (rules : list rule) (top : list xml) (path : list nat) : list (aid * str) :=
  flat_map (fun r => if r_matches r top path then flat_map sheet_decl (r_declarations r) else []) rules.
(* A declaration of a style attribute. *)
Definition style_decl (d : str * str) : list (aid * str) :=
  match css_property (fst d) with Some a => [(a, snd d)] | None => [] end.
Definition style_decls (P : values) (attrs : list xattr) : list (aid * str) :=
  match plain_attribute (lit "style") attrs with
  | Some v => flat_map style_decl (p_declarations P v)
  | None => []
  end.

(* All declarations of an element in the order of the cascade. *)
Definition declarations (P : values) (rules : list rule) (top : list xml) (path : list nat) (attrs : list xattr)
  : list (aid * str) :=
  attribute_decls attrs ++ sheet_decls rules top path ++ style_decls P attrs.

(* The SVG part: elements of other namespaces and unknown elements are dropped with their content,
   white text is kept only directly inside text, tspan and tref ([inside] is the parent). *)
Definition white_matters (inside : option eid) : bool :=
  match inside with Some E_Text | Some E_Tspan | Some E_Tref => true | _ => false end.
Fixpoint svg_part (P : values) (rules : list rule) (top : list xml) (inside : option eid) (path : list nat) (x : xml)
  : list snode :=
  match x with
  | XmlElement ns local attrs kids =>
      if ostr_eqb ns (Some (lit "http://www.w3.org/2000/svg")) then
        match element_named local with
        | Some e =>
            [SElement e (xml_id attrs) (declarations P rules top path attrs)
               ((fix go i l := match l with
                               | [] => []
                               | c :: t => svg_part P rules top (Some e) (path ++ [i]) c ++ go (S i) t
                               end) 0 kids)]
        | None => []
        end
      else []
  | XmlText s => if forallb is_white s && negb (white_matters inside) then [] else [SText s]
  | XmlComment s => [SComment s]
  | XmlOther => []
  end.
Fixpoint svg_parts (P : values) (rules : list rule) (top : list xml) (inside : option eid) (path : list nat) (i : nat)
  (l : list xml) : list snode :=
  match l with
  | [] => []
  | c :: t => svg_part P rules top inside (path ++ [i]) c ++ svg_parts P rules top inside path (S i) t
  end.

(* The style sheets of an XML document in document order: the style elements of any namespace whose type
   is text/css or missing, and whose first child is a text. *)
Fixpoint xml_nodes (x : xml) : list xml :=
  x :: match x with XmlElement _ _ _ kids => flat_map xml_nodes kids | _ => [] end.
Definition sheet_text (x : xml) : list str :=
  match x with
  | XmlElement _ local attrs (XmlText s :: _) =>
      if str_eqb local (lit "style") && existsb (ostr_eqb (plain_attribute (lit "type") attrs)) [None; Some (lit "text/css")]
      then [s] else []
  | _ => []
  end.
Definition sheet_texts (top : list xml) : list str := flat_map sheet_text (flat_map xml_nodes top).

(* The SVG part of a whole XML document with its own style sheets. *)
Definition svg_of (P : values) (top : list xml) : list snode :=
  svg_parts P (p_sheet P (sheet_texts top)) top None [] 0 top.

(* The first element. *)
Fixpoint first_element (l : list snode) : option eid :=
  match l with
  | [] => None
  | SElement e _ _ _ :: _ => Some e
  | _ :: t => first_element t
  end.

(* Without style elements. *)
Fixpoint no_style (x : snode) : list snode :=
  match x with
  | SElement e id ds ks => if eid_eqb e E_Style then [] else [SElement e id ds (flat_map no_style ks)]
  | y => [y]
  end.

(* What one declaration does (ValueSpec.v): a value, nothing, or a reference to be resolved later. *)
Definition meaning (P : values) (e : eid) (d : aid * str) : outcome := read_value P e (fst d) (snd d).

(* The plain values that declarations give to [a], in order, and the last of them. *)
Definition plain_values (P : values) (e : eid) (a : aid) (ds : list (aid * str)) : list avalue :=
  flat_map (fun d => if aid_eqb (fst d) a
                     then match meaning P e d with OValue v => [v] | _ => [] end else []) ds.
Definition plain_value (P : values) (e : eid) (a : aid) (ds : list (aid * str)) : option avalue :=
  hd_error (rev (plain_values P e a ds)).

(* The references among the declarations. *)
Definition references (P : values) (e : eid) (n : nid) (ds : list (aid * str)) : list link :=
  flat_map (fun d => match meaning P e d with OLink iri fb => [mkLink (fst d) iri fb n] | _ => [] end) ds.

(* [a] has no reference. *)
Definition no_reference (P : values) (e : eid) (a : aid) (ds : list (aid * str)) : Prop :=
  forall d, In d ds -> fst d = a -> forall iri fb, meaning P e d <> OLink iri fb.

(* The trees [ts] of the document show the nodes [l], whose references are [ls] in document order;
   no reference is resolved yet. *)
Inductive built (P : values) (D : dom) : list snode -> list tree -> list link -> Prop :=
| built_nil : built P D [] [] []
| built_element : forall e id ds ks l n ts us l1 l2,
    node_type D n = NElement -> tag_name D n = QId e -> id_of D n = id ->
    (forall q v, In (mkAttr q v) (attributes D n) <-> exists a, q = QId a /\ plain_value P e a ds = Some v) ->
    built P D ks ts l1 -> built P D l us l2 ->
    built P D (SElement e id ds ks :: l) (T n ts :: us) (references P e n ds ++ l1 ++ l2)
| built_text : forall s l n us l2, node_type D n = NText -> text_of D n = s -> built P D l us l2 ->
    built P D (SText s :: l) (T n [] :: us) l2
| built_comment : forall s l n us l2, node_type D n = NComment -> text_of D n = s -> built P D l us l2 ->
    built P D (SComment s :: l) (T n [] :: us) l2.

(* The trees [ts] of the document show the nodes [l]; every element [n] made from an element [e] with
   the declarations [ds] satisfies [Q e ds n]. *)
Inductive laid_out (Q : eid -> list (aid * str) -> nid -> Prop) (D : dom) : list snode -> list tree -> Prop :=
| laid_nil : laid_out Q D [] []
| laid_element : forall e id ds ks l n ts us,
    node_type D n = NElement -> tag_name D n = QId e -> id_of D n = id -> Q e ds n ->
    laid_out Q D ks ts -> laid_out Q D l us -> laid_out Q D (SElement e id ds ks :: l) (T n ts :: us)
| laid_text : forall s l n us, node_type D n = NText -> text_of D n = s -> laid_out Q D l us ->
    laid_out Q D (SText s :: l) (T n [] :: us)
| laid_comment : forall s l n us, node_type D n = NComment -> text_of D n = s -> laid_out Q D l us ->
    laid_out Q D (SComment s :: l) (T n [] :: us).

(* The same for a document after text processing: texts may have lost white characters, and those
   that became empty are gone. *)
Inductive shown (Q : eid -> list (aid * str) -> nid -> Prop) (D : dom) : list snode -> list tree -> Prop :=
| shown_nil : shown Q D [] []
| shown_element : forall e id ds ks l n ts us,
    node_type D n = NElement -> tag_name D n = QId e -> id_of D n = id -> Q e ds n ->
    shown Q D ks ts -> shown Q D l us -> shown Q D (SElement e id ds ks :: l) (T n ts :: us)
| shown_text : forall s l n us, node_type D n = NText -> whitened s (text_of D n) -> text_of D n <> [] ->
    shown Q D l us -> shown Q D (SText s :: l) (T n [] :: us)
| shown_gone : forall s l us, whitened s [] -> shown Q D l us -> shown Q D (SText s :: l) us
| shown_comment : forall s l n us, node_type D n = NComment -> text_of D n = s -> shown Q D l us ->
    shown Q D (SComment s :: l) (T n [] :: us).

(* The tree of a document. *)
Definition document_tree (D : dom) (t : tree) : Prop :=
  exists F, shows (lk D) F /\ tree_at F t /\ t_node t = droot D.

(* The first node with an id in document order. *)
Definition first_with_id (D : dom) (t : tree) (id : str) : option nid :=
  find (fun n => str_eqb (id_of D n) id) (preorder t).

(* The text of a reference. *)
Definition reference_text (a : aid) (iri : str) : str :=
  match a with
  | A_Href => lit "#" ++ iri
  | _ => lit "url(#" ++ iri ++ lit ")"
  end.

(* The value of an attribute whose reference has no target. *)
Definition instead (d : link) : avalue :=
  match l_fallback d, l_attr d with
  | Some FNone, _ => VNone
  | Some FCurrentColor, _ => VCurrentColor
  | Some (FColor c), _ => VColor c
  | None, A_Fill => VNone
  | None, a => VString (reference_text a (l_iri d))
  end.

(* The value of an attribute whose reference has the target [t]. *)
Definition pointing (d : link) (t : nid) : avalue :=
  match l_attr d with
  | A_Href => VLink t
  | A_Fill | A_Stroke => VPaint t (l_fallback d)
  | _ => VFuncLink t
  end.

(* Only the attribute [a] of [n] changes: it is set to [v]. *)
Definition only_set (D D' : dom) (n : nid) (a : aid) (v : avalue) : Prop :=
  same_nodes D D' /\
  attributes D' n = others (QId a) (attributes D n) ++ [mkAttr (QId a) v] /\
  (forall m, m <> n -> attributes D' m = attributes D m).

(* One reference is resolved in the tree [t] of the document. *)
Definition resolves (t : tree) (d : link) (D D' : dom) : Prop :=
  match first_with_id D t (l_iri d) with
  | None => only_set D D' (l_node d) (l_attr d) (instead d)
  | Some x =>
      match refused D (l_node d) (mkAttr (QId (l_attr d)) (VLink x)) with
      | None => only_set D D' (l_node d) (l_attr d) (pointing d x)
      | Some _ => D' = D
      end
  end.

(* A list of references is resolved in order. *)
Inductive resolved (t : tree) : list link -> dom -> dom -> Prop :=
| res_nil  : forall D, resolved t [] D D
| res_cons : forall d ls D D1 D', resolves t d D D1 -> resolved t ls D1 D' -> resolved t (d :: ls) D D'.

(* Style elements declare no references. *)
Fixpoint refers (P : values) (x : snode) : bool :=
  match x with
  | SElement e _ ds ks => existsb (fun d => match meaning P e d with OLink _ _ => true | _ => false end) ds || existsb (refers P) ks
  | _ => false
  end.
Fixpoint style_refers (P : values) (x : snode) : bool :=
  match x with
  | SElement e _ ds ks => if eid_eqb e E_Style then refers P x else existsb (style_refers P) ks
  | _ => false
  end.

(* The last declaration for [a] that has an effect. *)
Definition effective (o : outcome) : bool := match o with OValue _ | OLink _ _ => true | _ => false end.
Definition last_effective (P : values) (e : eid) (a : aid) (ds : list (aid * str)) : option outcome :=
  hd_error (rev (filter effective (map (meaning P e) (filter (fun d => aid_eqb (fst d) a) ds)))).

(* Some element with the id [id] declares a reference to [target]. *)
Fixpoint declares (P : values) (id target : str) (x : snode) : bool :=
  match x with
  | SElement e i ds ks =>
      str_eqb i id && existsb (fun d => match meaning P e d with OLink iri _ => str_eqb iri target | _ => false end) ds
      || existsb (declares P id target) ks
  | _ => false
  end.

(* The attributes of an element after the cascade.  Without references the last valid value counts; if
   the last valid declaration is a reference, it counts unless it would be refused: the target may not be
   without id, the element itself, or an element that refers back. *)
Definition cascaded (P : values) (top : list xml) (D : dom) (t : tree) (e : eid) (ds : list (aid * str)) (n : nid) : Prop :=
  forall a,
    (no_reference P e a ds -> forall v, In (mkAttr (QId a) v) (attributes D n) <-> plain_value P e a ds = Some v) /\
    (forall iri fb, last_effective P e a ds = Some (OLink iri fb) -> iri <> [] -> iri <> id_of D n ->
       existsb (declares P iri (id_of D n)) (flat_map no_style (svg_of P top)) = false ->
       forall v, In (mkAttr (QId a) v) (attributes D n) <->
         v = match first_with_id D t iri with Some x => pointing (mkLink a iri fb n) x | None => instead (mkLink a iri fb n) end).

(* The value of an attribute, exactly: the last reference that is not refused (AttrSpec.v, read in the final
   document) beats every plain value; without one the last plain value counts. *)
Definition reference_value (D : dom) (t : tree) (d : link) : list avalue :=
  match first_with_id D t (l_iri d) with
  | None => [instead d]
  | Some x => match refused D (l_node d) (mkAttr (QId (l_attr d)) (VLink x)) with
              | None => [pointing d x]
              | Some _ => []
              end
  end.
Definition final_value (P : values) (D : dom) (t : tree) (e : eid) (ds : list (aid * str)) (n : nid) (a : aid) : option avalue :=
  match rev (flat_map (reference_value D t) (filter (fun d => aid_eqb (l_attr d) a) (references P e n ds))) with
  | v :: _ => Some v
  | [] => plain_value P e a ds
  end.

(* The numbers from 0 to 1. *)
Definition in_unit (x : f64) : Prop := SFleb f_zero x = true /\ SFleb x f_one = true.

(* The attributes whose numbers are clamped. *)
Definition unit_attribute (a : aid) : bool :=
  match a with
  | A_Opacity | A_FillOpacity | A_StrokeOpacity | A_StopOpacity | A_FloodOpacity | A_K1 | A_K2 | A_K3 | A_K4 => true
  | _ => false
  end.

(* The attribute lists of all elements of an XML tree. *)
Fixpoint xml_attributes (x : xml) : list (list xattr) :=
  match x with
  | XmlElement _ _ attrs kids => attrs :: flat_map xml_attributes kids
  | _ => []
  end.

(* A rule with marker spelled out. *)
Definition spell_out (d : str * str) : list (str * str) :=
  if str_eqb (fst d) (lit "marker")
  then [(lit "marker-start", snd d); (lit "marker-mid", snd d); (lit "marker-end", snd d)]
  else [d].
Definition spell_out_rule (r : rule) : rule := mkRule (r_matches r) (flat_map spell_out (r_declarations r)).

(* The same crates with another style sheet parser, or another parser for style attributes. *)
Definition with_sheet (f : list str -> list rule) (P : values) : values :=
  mkValues (p_iri P) (p_func_iri P) (p_paint P) (p_length P) (p_length_list P) (p_number P) (p_number_list P) (p_color P)
    (p_points P) (p_segments P) (p_path P) (p_transform P) (p_angle P) (p_viewbox P) (p_ratio P) (p_no_numbers P)
    (p_no_lengths P) (p_no_path P) (p_identity P) (p_declarations P) f.
Definition with_declarations (f : str -> list (str * str)) (P : values) : values :=
  mkValues (p_iri P) (p_func_iri P) (p_paint P) (p_length P) (p_length_list P) (p_number P) (p_number_list P) (p_color P)
    (p_points P) (p_segments P) (p_path P) (p_transform P) (p_angle P) (p_viewbox P) (p_ratio P) (p_no_numbers P)
    (p_no_lengths P) (p_no_path P) (p_identity P) f (p_sheet P).

(* Where the value of an attribute comes from: one of the declarations was read as this value, or as a
   reference. *)
Definition comes_from (D : dom) (t : tree) (n : nid) (a : aid) (o : outcome) (v : avalue) : Prop :=
  match o with
  | OValue w => v = w
  | OLink iri fb =>
      v = match first_with_id D t iri with
          | Some x => pointing (mkLink a iri fb n) x
          | None => instead (mkLink a iri fb n)
          end
  | ONothing | OInvalid => False
  end.
