(* C27-C37, C56: parsing. *)
From Coq Require Import String List Bool PeanoNat NArith ZArith Lia.
From Coq Require Import SpecFloat.
From Verif Require Import Base Ids Names Links Tree Iter ForestSpec TreeSpec Data Attrs Slab NodeApi AttrSpec Doc History DocSpec
  HistoryProofs ApiProofs DocApi Samples Text TextSpec TextSamples Parser ParserSpec ParserSamples ParserFacts ParserMeaning ParserStatements ParserCascade ParserUsers.
Import ListNotations.
Open Scope string_scope.
Open Scope nat_scope.
Open Scope list_scope.

(* C27: success means that the first SVG element is svg and that svg_element() finds it; otherwise the
   result is NoSvgElement. *)
Theorem C27_svg_first P top : match first_element (svg_of P top) with
  | Some E_Svg => exists D F pre n post, parse_svg P (Some top) = Ok (POk D) /\ shows (lk D) F /\
      children_of F (droot D) = pre ++ n :: post /\ (forall x, In x pre -> is_element D x = false) /\
      is_element D n = true /\ tag_name D n = QId E_Svg /\ svg_element D = Ok (Some n)
  | _ => parse_svg P (Some top) = Ok (PErr NoSvgElement)
  end.
Proof. exact (svg_or_error P top). Qed.
Print Assumptions C27_svg_first.
Example C27_case : first_element (svg_of PV xml1) = Some E_Svg /\
  first_element (svg_of PV [el "g" [] []; el "svg" [] []]) = Some E_G /\ first_element (svg_of PV [XmlComment []; XmlOther]) = None.
Proof. vm_compute. tauto. Qed.

(* C28: no style element in the tree. *)
Theorem C28_no_style P top D t n : parse_svg P (Some top) = Ok (POk D) -> document_tree D t -> In n (preorder t) ->
  tag_name D n <> QId E_Style.
Proof. exact (no_style_left P top D t n). Qed.
Print Assumptions C28_no_style.
Example C28_case : flat_map css_texts xml1 <> [] /\
  (exists D, parse_svg PV (Some xml1) = Ok (POk D)) /\
  forall D, parse_svg PV (Some xml1) = Ok (POk D) -> exists t, document_tree D t /\ preorder t <> [].
Proof.
  split; [vm_compute; discriminate|]. split; [apply parsed_case_ok; vm_compute; reflexivity|].
  intros D E. destruct (tree_of_svg PV xml1 D E) as (t & Ht & _). exists t. split; [exact Ht|]. clear. destruct t. intros H. discriminate H.
Qed.

(* C29: no empty text in the tree. *)
Theorem C29_no_empty_text P top D t n : parse_svg P (Some top) = Ok (POk D) -> document_tree D t -> In n (preorder t) ->
  is_text D n = true -> text_of D n <> [].
Proof. exact (no_empty_text P top D t n). Qed.
Print Assumptions C29_no_empty_text.
Example C29_case : show (parse_svg PV (Some [el "svg" [] [el "text" [] [tx " "; el "tspan" [] [tx "a "]]]])) =
  Some (ORoot [OE (QId E_Svg) [] [] [OE (QId E_Text) [] [] [OE (QId E_Tspan) [] [] [OT (lit "a ")]]]]).
Proof. vm_compute. reflexivity. Qed.

(* C30: before text processing the tree is the SVG part of the XML tree without style elements, with
   the same ids and texts; afterwards only texts have changed. *)
Theorem C30_tree P top D : parse_tree P top = Ok (POk D) ->
  exists t, document_tree D t /\ laid_out (fun _ _ _ => True) D (flat_map no_style (svg_of P top)) (t_kids t).
Proof. exact (tree_of_xml P top D). Qed.
Print Assumptions C30_tree.
Theorem C30_final_tree P top D : parse_svg P (Some top) = Ok (POk D) ->
  exists t, document_tree D t /\ shown (fun _ _ _ => True) D (flat_map no_style (svg_of P top)) (t_kids t).
Proof. exact (tree_of_svg P top D). Qed.
Print Assumptions C30_final_tree.
Theorem C30_stages P top : (exists D, parse_tree P top = Ok (POk D)) <-> (exists D, parse_svg P (Some top) = Ok (POk D)).
Proof. exact (stages P top). Qed.
Print Assumptions C30_stages.
(* White text is text of the characters that Unicode calls White_Space: tab, line feed, line tabulation, form feed,
   carriage return, space, next line, no-break space, ogham space mark, en quad to hair space, line separator,
   paragraph separator, narrow no-break space, medium mathematical space and ideographic space. *)
Definition white_space : list chr :=
  [9; 10; 11; 12; 13; 32; 133; 160; 5760; 8192; 8193; 8194; 8195; 8196; 8197; 8198; 8199; 8200; 8201; 8202; 8232; 8233; 8239; 8287;
   12288]%N.
Theorem C30_white s : blank_str s = true <-> forall c, In c s -> In c white_space.
Proof.
  assert (W : forall c, is_white c = true <-> In c white_space).
  { intros c. unfold is_white, white_space. cbn [In].
    rewrite !orb_true_iff, !andb_true_iff, !N.leb_le, !N.eqb_eq. lia. }
  unfold blank_str. rewrite forallb_forall. split; intros H c Hc; apply W, H, Hc.
Qed.
Print Assumptions C30_white.
Example C30_case : show (parse_tree PV
  [el "svg" [at_ "id" "s"] [tx " "; XmlElement None (lit "g") [] [el "g" [] []]; el "style" [] [tx "a"];
     el "text" [] [tx " "; tx "x"]; el "g" [] [tx "y "; XmlComment (lit "z")]]]) =
  Some (ORoot [OE (QId E_Svg) (lit "s") [] [OE (QId E_Text) [] [] [OT (lit " "); OT (lit "x")];
    OE (QId E_G) [] [] [OT (lit "y "); OC (lit "z")]]]).
Proof. vm_compute. reflexivity. Qed.

(* C31: the parser collects the references of the tree in document order and resolves them one by
   one; resolving is right for every document and every list of references. *)
Theorem C31_parsed P top D : parse_tree P top = Ok (POk D) ->
  exists D1 t ls, document_tree D1 t /\ document_tree D t /\
    (forall n a, In a (attributes D1 n) -> link_target (a_value a) = None) /\
    built P D1 (flat_map no_style (svg_of P top)) (t_kids t) (filter (fun d => mem (l_node d) (preorder t)) ls) /\
    resolved t ls D1 D.
Proof. exact (references_resolved P top D). Qed.
Print Assumptions C31_parsed.
Theorem C31_any_references D t ls : reachable_tame D -> document_tree D t ->
  (forall d, In d ls -> is_element D (l_node d) = true) -> exists D', resolve_links ls D = Ok D' /\ resolved t ls D D'.
Proof. exact (any_references_resolved D t ls). Qed.
Print Assumptions C31_any_references.
Example C31_case : show (parse_svg PV (Some
  [el "svg" [] [el "linearGradient" [at_ "id" "a"; at_ "href" "#b"] []; el "linearGradient" [at_ "id" "b"; at_ "href" "#a"] [];
                el "g" [at_ "id" "b"; at_ "fill" "url(#b)"; at_ "stroke" "url(#b)"; at_ "mask" "url(#none)"] [];
                el "rect" [at_ "fill" "url(#b)"; at_ "clip-path" "url(#a)"] []]])) =
  Some (ORoot [OE (QId E_Svg) [] [] [OE (QId E_LinearGradient) (lit "a") [mkAttr (QId A_Href) (VLink 3)] [];
    OE (QId E_LinearGradient) (lit "b") [] [];
    OE (QId E_G) (lit "b") [mkAttr (QId A_Mask) (VString (lit "url(#none)"))] [];
    OE (QId E_Rect) [] [mkAttr (QId A_Fill) (VPaint 3 (Some FNone)); mkAttr (QId A_ClipPath) (VFuncLink 2)] []]]).
Proof. vm_compute. reflexivity. Qed.

(* C32: the cascade.  The full claim fails for an attribute with both references and plain values: there
   the last reference that is not refused counts (C32_exact_partial). *)
Theorem C32_cascade_partial P top D : parse_svg P (Some top) = Ok (POk D) ->
  exists t, document_tree D t /\ shown (cascaded P top D t) D (flat_map no_style (svg_of P top)) (t_kids t).
Proof. exact (cascade P top D). Qed.
Print Assumptions C32_cascade_partial.
Example C32_case :
  flat_map no_style (svg_of PV
    [el "svg" [] [el "style" [] [tx "fill:none;opacity:0.5"]; el "rect" [at_ "style" "fill:url(#a)"; at_ "fill" "red"; at_ "opacity" "2"] [];
       el "linearGradient" [at_ "id" "a"] []]]) =
    [SElement E_Svg [] [] [SElement E_Rect [] [(A_Fill, lit "red"); (A_Opacity, lit "2"); (A_Fill, lit "none"); (A_Opacity, lit "0.5");
        (A_Fill, lit "url(#a)")] []; SElement E_LinearGradient (lit "a") [] []]] /\
  last_effective PV E_Rect A_Fill [(A_Fill, lit "red"); (A_Fill, lit "none"); (A_Fill, lit "url(#a)")] = Some (OLink (lit "a") (Some FNone)) /\
  show (parse_svg PV (Some
    [el "svg" [] [el "style" [] [tx "fill:none;opacity:0.5"]; el "rect" [at_ "style" "fill:url(#a)"; at_ "fill" "red"; at_ "opacity" "2"] [];
       el "linearGradient" [at_ "id" "a"] []]])) =
    Some (ORoot [OE (QId E_Svg) [] [] [OE (QId E_Rect) [] [mkAttr (QId A_Opacity) (VNumber half); mkAttr (QId A_Fill) (VPaint 5 (Some FNone))] [];
      OE (QId E_LinearGradient) (lit "a") [] []]]).
Proof. vm_compute. tauto. Qed.
Theorem C32_exact_partial P top D : parse_svg P (Some top) = Ok (POk D) ->
  exists t, document_tree D t /\
    shown (fun e ds n => forall a v, In (mkAttr (QId a) v) (attributes D n) <-> final_value P D t e ds n a = Some v)
      D (flat_map no_style (svg_of P top)) (t_kids t).
Proof. exact (cascade_exact P top D). Qed.
Print Assumptions C32_exact_partial.
(* b refers to a, so a may not refer to b: the earlier reference to c counts, although a plain value comes last. *)
Example C32_exact_case :
  let top := [el "svg" [] [el "g" [at_ "id" "c"] []; el "mask" [at_ "id" "b"; at_ "filter" "url(#a)"] [];
                el "rect" [at_ "id" "a"; at_ "mask" "url(#c)"; at_ "style" "mask:url(#b);mask:none"] []]] in
  show (parse_svg PV (Some top)) =
    Some (ORoot [OE (QId E_Svg) [] [] [OE (QId E_G) (lit "c") [] []; OE (QId E_Mask) (lit "b") [mkAttr (QId A_Filter) (VFuncLink 4)] [];
      OE (QId E_Rect) (lit "a") [mkAttr (QId A_Mask) (VFuncLink 2)] []]]).
Proof. vm_compute. reflexivity. Qed.
(* A reference beats a later plain value. *)
Theorem C32_last_value_refuted : exists P top D n v,
  parse_svg P (Some top) = Ok (POk D) /\
  svg_of P top = [SElement E_Svg [] [] [SElement E_Rect [] [(A_Fill, lit "url(#lg)"); (A_Fill, lit "red")] [];
                                        SElement E_LinearGradient (lit "lg") [] []]] /\
  meaning P E_Rect (A_Fill, lit "red") = OValue v /\ tag_name D n = QId E_Rect /\
  exists t fb, attributes D n = [mkAttr (QId A_Fill) (VPaint t fb)].
Proof.
  set (top := [el "svg" [] [el "rect" [at_ "fill" "url(#lg)"; at_ "style" "fill:red"] []; el "linearGradient" [at_ "id" "lg"] []]]).
  destruct (parsed_case PV top (fun D => tag_name D 2 = QId E_Rect /\ attributes D 2 = [mkAttr (QId A_Fill) (VPaint 3 (Some FNone))]))
    as (D & E & H1 & H2); [vm_compute; tauto|].
  exists PV, top, D, 2, (VColor red_color). split; [exact E|]. split; [vm_compute; reflexivity|]. split; [vm_compute; reflexivity|].
  split; [exact H1|]. exists 3, (Some FNone). exact H2.
Qed.
Print Assumptions C32_last_value_refuted.

(* C33: no panic. *)
Theorem C33_no_panic P doc : exists r, parse_svg P doc = Ok r.
Proof. exact (parse_total P doc). Qed.
Print Assumptions C33_no_panic.
Example C33_case : show (parse_svg PV (Some xml1)) <> None /\ parse_svg PV (Some []) = Ok (PErr NoSvgElement) /\
  parse_svg PV None = Ok (PErr RoXmlError).
Proof. vm_compute. repeat split; discriminate. Qed.

(* C34: attributes come from the declarations of the element and are never id, class or style. *)
Theorem C34_attributes P top D : parse_svg P (Some top) = Ok (POk D) ->
  exists t, document_tree D t /\
    shown (fun e ds n => forall x, In x (attributes D n) -> exists a s, a_name x = QId a /\ special a = false /\ In (a, s) ds)
      D (flat_map no_style (svg_of P top)) (t_kids t) /\
    (forall n, In n (preorder t) -> is_element D n = false -> attributes D n = [] /\ id_of D n = []).
Proof. exact (attributes_from P top D). Qed.
Print Assumptions C34_attributes.
Example C34_case : svg_of PV [el "svg" [at_ "class" "a"; at_ "id" "b"; at_ "style" "fill:red"; at_ "data-x" "1"; at_ "id" "c";
    mkXattr (Some (lit "urn:x")) (lit "fill") (lit "none"); mkXattr (Some ns_xml) (lit "space") (lit "preserve")] []] =
  [SElement E_Svg (lit "c") [(A_Space, lit "preserve"); (A_Fill, lit "red")] []].
Proof. vm_compute. reflexivity. Qed.

(* C35: numbers of these attributes are clamped. *)
Theorem C35_clamped P top D : parse_svg P (Some top) = Ok (POk D) ->
  exists t, document_tree D t /\
    shown (fun e ds n => forall a, unit_attribute a = true ->
        (forall x, In (mkAttr (QId a) (VNumber x)) (attributes D n) ->
           in_unit x \/ (x = S754_nan /\ exists s, p_number P s = Some (x, true))) /\
        (forall pre s post x, ds = pre ++ (a, s) :: post -> (forall d, In d post -> fst d <> a) ->
           p_number P (strip s) = Some (x, true) -> strip s <> lit "inherit" -> in_unit x ->
           In (mkAttr (QId a) (VNumber x)) (attributes D n)))
      D (flat_map no_style (svg_of P top)) (t_kids t).
Proof. exact (numbers_clamped P top D). Qed.
Print Assumptions C35_clamped.
Example C35_case : show (parse_svg PV (Some [el "svg" [at_ "opacity" "2"; at_ "fill-opacity" " 0.5"] []])) =
    Some (ORoot [OE (QId E_Svg) [] [mkAttr (QId A_Opacity) (VNumber f_one); mkAttr (QId A_FillOpacity) (VNumber half)] []]) /\
  in_unit half /\ in_unit f_one /\ ~ in_unit two.
Proof. split; [vm_compute; reflexivity|]. split; [now split|]. split; [now split|]. intros (_ & H). vm_compute in H. discriminate H. Qed.

(* C36: marker in a style sheet.  Missing from the full claim: marker in a style attribute. *)
Theorem C36_sheet_partial P doc : parse_svg (with_sheet (fun l => map spell_out_rule (p_sheet P l)) P) doc = parse_svg P doc.
Proof. exact (marker_in_sheet P doc). Qed.
Print Assumptions C36_sheet_partial.
Theorem C36_no_marker_partial P top D t n v : parse_svg P (Some top) = Ok (POk D) ->
  (forall attrs x, In attrs (flat_map xml_attributes top) -> In x attrs -> x_name x <> lit "marker") ->
  (forall attrs v d, In attrs (flat_map xml_attributes top) -> plain_attribute (lit "style") attrs = Some v ->
     In d (p_declarations P v) -> fst d <> lit "marker") ->
  document_tree D t -> In n (preorder t) -> ~ In (mkAttr (QId A_Marker) v) (attributes D n).
Proof. exact (no_marker_from_sheet P top D t n v). Qed.
Print Assumptions C36_no_marker_partial.
Example C36_case :
  let top := [el "svg" [] [el "style" [] [tx "marker:url(#m)"]; el "rect" [at_ "style" "fill:red"] []; el "marker" [at_ "id" "m"] []]] in
  p_sheet PV (flat_map css_texts top) <> [] /\
  show (parse_svg PV (Some top)) = Some (ORoot [OE (QId E_Svg) [] [] [OE (QId E_Rect) []
    [mkAttr (QId A_Fill) (VColor red_color); mkAttr (QId A_MarkerStart) (VFuncLink 5); mkAttr (QId A_MarkerMid) (VFuncLink 5);
     mkAttr (QId A_MarkerEnd) (VFuncLink 5)] []; OE (QId E_Marker) (lit "m") [] []]]) /\
  (forall attrs x, In attrs (flat_map xml_attributes top) -> In x attrs -> x_name x <> lit "marker").
Proof.
  split; [vm_compute; discriminate|]. split; [vm_compute; reflexivity|]. intros attrs x Ha Hx.
  vm_compute in Ha. destruct Ha as [<-|[<-|[<-|[<-|[]]]]]; cbn in Hx; try easy;
    (destruct Hx as [<-|[]]; intros H; vm_compute in H; discriminate H).
Qed.
(* A style attribute is not expanded. *)
Theorem C36_style_attribute_refuted : exists P top D n,
  parse_svg P (Some top) = Ok (POk D) /\
  svg_of P top = [SElement E_Svg [] [] [SElement E_Rect [] [(A_Marker, lit "url(#m)")] []; SElement E_Marker (lit "m") [] []]] /\
  (forall attrs x, In attrs (flat_map xml_attributes top) -> In x attrs -> x_name x <> lit "marker") /\
  tag_name D n = QId E_Rect /\ exists t, attributes D n = [mkAttr (QId A_Marker) (VFuncLink t)].
Proof.
  set (top := [el "svg" [] [el "rect" [at_ "style" "marker:url(#m)"] []; el "marker" [at_ "id" "m"] []]]).
  destruct (parsed_case PV top (fun D => tag_name D 2 = QId E_Rect /\ attributes D 2 = [mkAttr (QId A_Marker) (VFuncLink 3)]))
    as (D & E & H1 & H2); [vm_compute; tauto|].
  exists PV, top, D, 2. split; [exact E|]. split; [vm_compute; reflexivity|]. split.
  - clear D E H1 H2. intros attrs x Ha Hx. vm_compute in Ha. destruct Ha as [<-|[<-|[<-|[]]]]; cbn in Hx; try easy;
    (destruct Hx as [<-|[]]; intros H; vm_compute in H; discriminate H).
  - split; [exact H1|]. exists 3. exact H2.
Qed.
Print Assumptions C36_style_attribute_refuted.

(* C37: users are nodes of the tree.  Missing from the full claim: style elements with references. *)
Theorem C37_users_partial P top D t n u : parse_svg P (Some top) = Ok (POk D) -> existsb (style_refers P) (svg_of P top) = false ->
  document_tree D t -> In u (linked_nodes D n) -> In u (preorder t).
Proof. exact (users_in_tree P top D t n u). Qed.
Print Assumptions C37_users_partial.
(* In every parsed document: a user outside of the tree is a removed node. *)
Theorem C37_exact_partial P top D t n u : parse_svg P (Some top) = Ok (POk D) ->
  document_tree D t -> In u (linked_nodes D n) -> In u (preorder t) \/ is_detached D u = true.
Proof. exact (users_kept_or_removed P top D t n u). Qed.
Print Assumptions C37_exact_partial.
Example C37_case : existsb (style_refers PV) (svg_of PV xml1) = false /\
  exists D, parse_svg PV (Some xml1) = Ok (POk D) /\ linked_nodes D 6 = [5; 10].
Proof. split; [vm_compute; reflexivity|]. apply parsed_case. vm_compute. reflexivity. Qed.
(* The references of a removed style element stay. *)
Theorem C37_style_reference_refuted : exists P top D t n u,
  parse_svg P (Some top) = Ok (POk D) /\ document_tree D t /\ In n (preorder t) /\ In u (linked_nodes D n) /\ ~ In u (preorder t).
Proof.
  set (top := [el "svg" [] [el "style" [at_ "fill" "url(#lg)"] []; el "linearGradient" [at_ "id" "lg"] []]]).
  destruct (parsed_case PV top (fun D => linked_nodes D 3 = [2] /\ tree_b (lk D) (T 0 [T 1 [T 3 []]]) = true /\ droot D = 0))
    as (D & E & H1 & H2 & H3); [vm_compute; tauto|].
  destruct (tree_of_svg PV top D E) as (t & Ht & _). pose proof Ht as (F & S & T0 & R).
  assert (t = T 0 [T 1 [T 3 []]]) as ->.
  { apply (document_unique D); [exact Ht|]. exists F. split; [exact S|]. split; [exact (tree_b_ok D F _ S H2)|]. rewrite H3. reflexivity. }
  exists PV, top, D, (T 0 [T 1 [T 3 []]]), 3, 2. split; [exact E|]. split; [exact Ht|]. split; [cbn; tauto|].
  split; [rewrite H1; left; reflexivity|]. cbn. intros [H|[H|[H|[]]]]; discriminate H.
Qed.
Print Assumptions C37_style_reference_refuted.

(* C56: a parsed document is one that could have been made with calls of the API, so all theorems about
   such documents hold for it. *)
Theorem C56_parsed_by_api P top D : parse_svg P (Some top) = Ok (POk D) -> reachable_leafy D /\ reachable_tame D /\
  (existsb (style_refers P) (svg_of P top) = false -> reachable_orderly D).
Proof. exact (parsed_reachable P top D). Qed.
Print Assumptions C56_parsed_by_api.
Example C56_case : existsb (style_refers PV) (svg_of PV xml1) = false /\ exists D, parse_svg PV (Some xml1) = Ok (POk D).
Proof. split; [vm_compute; reflexivity|]. apply parsed_case_ok. vm_compute. reflexivity. Qed.
