(* C58-C61: attribute values of parsed documents, printing, default values, tests and conversions. *)
From Coq Require Import String List Bool PeanoNat NArith ZArith Permutation.
From Coq Require Import SpecFloat.
From Verif Require Import Base Ids Names Links Tree Iter ForestSpec TreeSpec Data Attrs Slab NodeApi AttrSpec Doc History DocSpec HistoryProofs Samples
  Types Text TextSpec TextSamples Writer WriterSpec WriterSamples Parser ValueSpec ParserSpec ParserSamples ParserStatements ParserValues
  Values InitialSpec KindProofs Display DisplaySpec DisplayProofs.
Import ListNotations.
Open Scope string_scope.
Open Scope nat_scope.
Open Scope list_scope.

(* C58: every value of a parsed element comes from one of the declarations of the element, read as the
   table of values says, and has one of the kinds of the attribute. *)
Theorem C58_values P top D : parse_svg P (Some top) = Ok (POk D) ->
  exists t, document_tree D t /\
    shown (fun e ds n => forall a v, In (mkAttr (QId a) v) (attributes D n) ->
             exists s, In (a, s) ds /\ comes_from D t n a (read_value P e a s) v)
      D (flat_map no_style (svg_of P top)) (t_kids t).
Proof. exact (values_from P top D). Qed.
Print Assumptions C58_values.
Theorem C58_kinds P top D t n e a v : parse_svg P (Some top) = Ok (POk D) -> document_tree D t -> In n (preorder t) ->
  tag_name D n = QId e -> In (mkAttr (QId a) v) (attributes D n) -> In (kind_of v) (kinds e a).
Proof. exact (values_kinds P top D t n e a v). Qed.
Print Assumptions C58_kinds.
Example C58_case : show (parse_svg PV (Some [el "svg" [] [el "rect" [at_ "x" "2"; at_ "opacity" "2"; at_ "fill" " url(#a)"] [];
    el "text" [at_ "x" "2"; at_ "stroke" "red"] [tx "a"]; el "g" [at_ "id" "a"; at_ "display" "none"] []]])) =
  Some (ORoot [OE (QId E_Svg) [] []
    [OE (QId E_Rect) [] [mkAttr (QId A_X) (VLength (mkLength two UNone)); mkAttr (QId A_Opacity) (VNumber f_one);
                         mkAttr (QId A_Fill) (VPaint 5 (Some FNone))] [];
     OE (QId E_Text) [] [mkAttr (QId A_X) (VLengthList 1%N); mkAttr (QId A_Stroke) (VColor red_color)] [OT (lit "a")];
     OE (QId E_G) (lit "a") [mkAttr (QId A_Display) VNone] []]]) /\
  kinds E_Rect A_X = [KLength] /\ kinds E_Text A_X = [KLengthList] /\
  kinds E_Rect A_Fill = [KNone; KInherit; KCurrentColor; KColor; KPaint; KString] /\ kinds E_Animate A_Fill = [KString] /\
  kinds E_G A_Display = [KNone; KInherit; KString].
Proof. vm_compute. tauto. Qed.

(* C59: printing a node or its attributes never panics; the printed form is the start tag with the names
   and values of the file, the debug form also lists the nodes that link to this one. *)
Theorem C59_display W D n : exists s, display_node W D n = Ok s /\ printed W D n s.
Proof. exact (display_printed W D n). Qed.
Print Assumptions C59_display.
Theorem C59_debug W D n : exists s, debug_node W D n = Ok s /\ debugged W D n s.
Proof. exact (debug_printed W D n). Qed.
Print Assumptions C59_debug.
Theorem C59_debug_references D n id : reachable D ->
  In id (map (id_of D) (linked_nodes D n)) <-> exists m, 0 < uses D m n /\ id_of D m = id.
Proof. exact (debug_references D n id). Qed.
Print Assumptions C59_debug_references.
Theorem C59_attributes W D l : exists xs, Forall2 (pair_of W D) l xs /\
  display_attrs W D l = Ok (joined (lit " ") (map quoted xs)) /\
  debug_attrs W D l = Ok (lit "Attributes(" ++ joined (lit " ") (map quoted xs) ++ lit ")").
Proof. exact (attrs_printed W D l). Qed.
Print Assumptions C59_attributes.
Theorem C59_attribute W D a : exists x, display_attr W D a = Ok (quoted x) /\ pair_of W D a x.
Proof. exact (display_attr_ok W D a). Qed.
Print Assumptions C59_attribute.
(* the same names and values are in the written file, in another order and with namespaces *)
Theorem C59_same_as_file W D F ts : reachable D -> shows (lk D) F -> inner D F -> tree_at F (T (droot D) ts) ->
  exists evs items, write_dom W D = Ok evs /\ read_back evs = Some items /\
    forall n, anc_or_self F (droot D) n -> is_element D n = true -> (forall a, In a (attributes D n) -> a_name a <> QId A_Unicode) ->
      exists name l ns rest b1 kids b2, display_node W D n = Ok (lit "<" ++ tag_text name l ++ lit ">") /\
        occurs (XElement b1 name (ns ++ rest) kids b2) items /\ namespaces D F n ns /\ Permutation rest l.
Proof. exact (printed_file W D F ts). Qed.
Print Assumptions C59_same_as_file.
Example C59_case : (exists F, writable wdoc F wdoc_trees) /\
  display_node sample_writers wdoc 3 = Ok (lit "<rect fill='url(#lg) none' opacity='0.5' data-x='7'>") /\
  debug_node sample_writers wdoc 7 = Ok (lit "Element(linearGradient id='lg'; linked-nodes: '' '' 'lg2')") /\
  display_node sample_writers wdoc 8 = Ok (lit "<linearGradient id='lg2' xlink:href='#lg'>") /\
  debug_node sample_writers wdoc 6 = Ok (lit "Text(hi)") /\ debug_node sample_writers wdoc 2 = Ok (lit "Element(g)") /\
  map a_name (attributes wdoc 3) = [QId A_Fill; QId A_Opacity; QName (lit "data-x")] /\ reachable wdoc /\ uses wdoc 8 7 = 1.
Proof. split; [exact wdoc_writable|]. do 6 (split; [vm_compute; reflexivity|]). split; [exact (tame_reachable _ wdoc_tame)|]. vm_compute. reflexivity. Qed.

(* C60: the default value of an attribute is the initial value of SVG 1.1, and the parser reads the
   initial value as this default.  The second part fails for stroke-miterlimit and
   glyph-orientation-horizontal: no parsed document ever has their default as a value. *)
Theorem C60_initial a s : attribute_as_str a = Ok s -> default_value a = option_map snd (initial s).
Proof. exact (default_initial a s). Qed.
Print Assumptions C60_initial.
Theorem C60_parsed_partial P e a s text v : reads_constants P -> attribute_as_str a = Ok s -> initial s = Some (text, v) ->
  a <> A_StrokeMiterlimit -> a <> A_GlyphOrientationHorizontal -> (animates e = true -> a <> A_Fill) ->
  parse_value P e a (lit text) = OValue v.
Proof. exact (initial_read P e a s text v). Qed.
Print Assumptions C60_parsed_partial.
Theorem C60_parsed_refuted a : a = A_StrokeMiterlimit \/ a = A_GlyphOrientationHorizontal ->
  exists v, default_value a = Some v /\
    forall P top D t n e, parse_svg P (Some top) = Ok (POk D) -> document_tree D t -> In n (preorder t) ->
      tag_name D n = QId e -> ~ In (mkAttr (QId a) v) (attributes D n).
Proof. exact (default_never a). Qed.
Print Assumptions C60_parsed_refuted.
(* value parsers that read the constants *)
Definition constants : values :=
  mkValues (p_iri PV) (p_func_iri PV)
    (fun s => if eqs s "none" then Some PtNone else if eqs s "black" then Some (PtColor (mkColor 0 0 0)) else None)
    (fun s => if eqs s "0" then Some (mkLength (S754_zero false) UNone) else if eqs s "1" then Some (mkLength one UNone) else None)
    (p_length_list PV) (fun s => if eqs s "1" then Some (one, true) else None) (p_number_list PV)
    (fun s => if eqs s "black" then Some (mkColor 0 0 0) else if eqs s "white" then Some (mkColor 255 255 255) else None)
    (p_points PV) (p_segments PV) (p_path PV) (p_transform PV) (p_angle PV) (p_viewbox PV) (p_ratio PV)
    (p_no_numbers PV) (p_no_lengths PV) (p_no_path PV) (p_identity PV) (p_declarations PV) (p_sheet PV).
Example C60_case : reads_constants constants /\ attribute_as_str A_StrokeWidth = Ok (lit "stroke-width") /\
  initial (lit "stroke-width") = Some ("1", VLength (mkLength one UNone)) /\
  parse_value constants E_Rect A_StrokeWidth (lit "1") = OValue (VLength (mkLength one UNone)) /\
  default_value A_StrokeMiterlimit = Some (VLength (mkLength four UNone)) /\
  parse_value PV E_Rect A_StrokeMiterlimit (lit "2") = OValue (VNumber two) /\ initial (lit "color") = None.
Proof. unfold reads_constants. vm_compute. tauto. Qed.

(* C61: the tests tell the kind of a value, exactly one of them holds; is_link_container tells whether a
   value has a node; integers convert exactly. *)
Theorem C61_tests f k : In (f, k)
    [ (is_none, KNone); (is_inherit, KInherit); (is_current_color, KCurrentColor); (is_aspect_ratio, KRatio); (is_color, KColor);
      (is_length, KLength); (is_length_list, KLengthList); (is_angle, KAngle); (is_link, KLink); (is_func_link, KFuncLink);
      (is_paint, KPaint); (is_number, KNumber); (is_number_list, KNumberList); (is_path, KPath); (is_points, KPoints);
      (is_string, KString); (is_transform, KTransform); (is_viewbox, KViewBox) ] ->
  forall v, f v = true <-> kind_of v = k.
Proof. exact (test_kind f k). Qed.
Print Assumptions C61_tests.
Theorem C61_attribute_tests f k : In (f, k)
    [ (attr_is is_none, KNone); (attr_is is_inherit, KInherit); (attr_is is_current_color, KCurrentColor); (attr_is is_aspect_ratio, KRatio);
      (attr_is is_color, KColor); (attr_is is_length, KLength); (attr_is is_length_list, KLengthList);
      (attr_is is_link, KLink); (attr_is is_func_link, KFuncLink); (attr_is is_paint, KPaint); (attr_is is_number, KNumber);
      (attr_is is_number_list, KNumberList); (attr_is is_path, KPath); (attr_is is_points, KPoints); (attr_is is_string, KString);
      (attr_is is_transform, KTransform); (attr_is is_viewbox, KViewBox) ] ->
  forall a, f a = true <-> kind_of (a_value a) = k.
Proof. exact (attr_test_kind f k). Qed.
Print Assumptions C61_attribute_tests.
Theorem C61_link_container v : (is_link_container v = true <-> exists n, link_target v = Some n) /\
  forall a, attr_is is_link_container a = true <-> exists n, link_target (a_value a) = Some n.
Proof. split; [exact (container_target v)|exact (fun a => container_target (a_value a))]. Qed.
Print Assumptions C61_link_container.
Theorem C61_attribute a id : (attribute_id a = Some id <-> a_name a = QId id) /\ (attribute_has_id a id = true <-> a_name a = QId id) /\
  (attribute_is_svg a = true <-> exists x, a_name a = QId x) /\
  (attribute_default id = Some a <-> a_name a = QId id /\ default_value id = Some (a_value a)).
Proof. exact (attribute_facts a id). Qed.
Print Assumptions C61_attribute.
Theorem C61_integers z : (- 2 ^ 31 <= z < 2 ^ 31)%Z ->
  exists x, from_i32 z = VNumber x /\ (forall u, from_i32_unit (z, u) = VLength (mkLength x u)) /\ is_int x z.
Proof. exact (integers_exact z). Qed.
Print Assumptions C61_integers.
Theorem C61_integers_differ x y : (- 2 ^ 31 <= x < 2 ^ 31)%Z -> (- 2 ^ 31 <= y < 2 ^ 31)%Z -> from_i32 x = from_i32 y -> x = y.
Proof. exact (integers_differ x y). Qed.
Print Assumptions C61_integers_differ.
Theorem C61_fallback f : kind_of (from_fallback f) = match f with FNone => KNone | FCurrentColor => KCurrentColor | FColor _ => KColor end /\
  (forall a iri n, instead (mkLink a iri (Some f) n) = from_fallback f).
Proof. exact (fallback_value f). Qed.
Print Assumptions C61_fallback.
(* The other conversions: the kind of the result, and nothing is lost: different things give different values. *)
Theorem C61_conversions :
  keeps_all from_aspect_ratio KRatio /\ keeps_all from_color KColor /\ keeps_all from_length KLength /\
  keeps_all from_length_list KLengthList /\ keeps_all from_angle KAngle /\ keeps_all from_f64 KNumber /\
  keeps_all from_number_list KNumberList /\ keeps_all from_path KPath /\ keeps_all from_points KPoints /\
  keeps_all from_string KString /\ keeps_all from_transform KTransform /\ keeps_all from_viewbox KViewBox /\
  keeps_all from_f64_unit KLength /\
  (forall l, from_f64_unit (len_num l, len_unit l) = from_length l) /\
  (forall f g, from_fallback f = from_fallback g -> f = g).
Proof. exact conversions_keep. Qed.
Print Assumptions C61_conversions.
Example C61_case : is_paint (VPaint 7 None) = true /\ is_func_link (VPaint 7 None) = false /\ is_link_container (VPaint 7 None) = true /\
  from_i32 (-3)%Z = VNumber (S754_finite true 6755399441055744 (-51)) /\ (6755399441055744 = 3 * 2 ^ 51)%Z /\
  from_i32 (2 ^ 31 - 1)%Z = VNumber (S754_finite false 9007199250546688 (-22)) /\
  attribute_default A_Fill = Some (mkAttr (QId A_Fill) (VColor (mkColor 0 0 0))) /\ attribute_default A_Width = None.
Proof. vm_compute. tauto. Qed.
