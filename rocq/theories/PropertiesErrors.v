(* C94: error messages. *)
From Coq Require Import String List Bool NArith PeanoNat.
From Verif Require Import Base Ids Names Data Attrs NodeApi Doc AttrSpec DocSpec History Samples Parser ParserSpec ParserSamples Errors ErrorSpec ErrorProofs.
Import ListNotations.
Open Scope string_scope.
Open Scope nat_scope.
Open Scope list_scope.

(* The message of set_attribute_checked says why the link is refused, and the document is as before. *)
Theorem C94_attribute D n a : reachable D -> is_element D n = true ->
  ((exists e, set_attribute_checked n a D = Ok (D, RErr e) /\ error_text e = lit "the element must have an id") <->
     exists t, link_target (a_value a) = Some t /\ id_of D t = []) /\
  ((exists e, set_attribute_checked n a D = Ok (D, RErr e) /\ error_text e = lit "element crosslink") <->
     exists t, link_target (a_value a) = Some t /\ id_of D t <> [] /\ (id_of D t = id_of D n \/ 0 < uses D t n)) /\
  (forall D' e, set_attribute_checked n a D = Ok (D', RErr e) -> D' = D /\
     (error_text e = lit "the element must have an id" \/ error_text e = lit "element crosslink")).
Proof. exact (checked_text D n a). Qed.
Print Assumptions C94_attribute.
(* from_str returns.  If the text is no XML, the message is that of the XML reader; otherwise it gives a document if the
   first element is svg, and a message that says that there is none if not. *)
Theorem C94_parse P x : exists r, from_str P x = Ok r /\
  match x, r with
  | inr m, inr e => parser_error_text e = m
  | inl top, inl D => first_element (svg_of P top) = Some E_Svg /\ parse_svg P (Some top) = Ok (POk D)
  | inl top, inr e => first_element (svg_of P top) <> Some E_Svg /\ parser_error_text e = lit "the document does not have an SVG element"
  | inr _, inl _ => False
  end.
Proof. exact (from_str_cases P x). Qed.
Print Assumptions C94_parse.
(* No other error comes from a parse: no error of the DOM, of CSS or of an attribute value. *)
Theorem C94_only P x e : from_str P x = Ok (inr e) -> e = PeNoSvgElement \/ exists m, x = inr m /\ e = PeRoXmlError m.
Proof. exact (from_str_errors P x e). Qed.
Print Assumptions C94_only.
(* The message of an error of this crate determines the error with its position. *)
Theorem C94_distinct e e' : own_error e -> own_error e' -> parser_error_text e = parser_error_text e' -> e = e'.
Proof. exact (texts_differ e e'). Qed.
Print Assumptions C94_distinct.
(* A DOM error says the same as a parser error. *)
Theorem C94_converted e m : parser_error_text (from_error e) = error_text e /\ parser_error_text (from_xml_error m) = m.
Proof. split; reflexivity. Qed.
Print Assumptions C94_converted.

Example C94_case : reachable doc /\ is_element doc 7 = true /\ is_element doc 3 = true /\
  set_attribute_checked 7 (mkAttr (QId A_Href) (VLink 8)) doc = Ok (doc, RErr ElementCrosslink) /\
  set_attribute_checked 3 (mkAttr (QId A_Mask) (VFuncLink 2)) doc = Ok (doc, RErr ElementMustHaveAnId) /\
  from_str PV (inl [el "rect" [] [el "svg" [] []]]) = Ok (inr PeNoSvgElement) /\
  (exists D, from_str PV (inl [el "svg" [] [el "rect" [] []]]) = Ok (inl D)) /\
  parser_error_text (PeUnsupportedCSS (mkPos 12 305)) = lit "unsupported CSS at 12:305" /\
  parser_error_text (PeInvalidAttributeValue (mkPos 1 0)) = lit "invalid attribute value at 1:0".
Proof.
  split; [exact doc_reachable|]. split; [vm_compute; reflexivity|]. split; [vm_compute; reflexivity|].
  split; [vm_compute; reflexivity|]. split; [vm_compute; reflexivity|]. split; [vm_compute; reflexivity|].
  split; [eexists; vm_compute; reflexivity|]. split; vm_compute; reflexivity.
Qed.
