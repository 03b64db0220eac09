(* C51-C53: names, ids and classes. *)
From Coq Require Import String List Bool PeanoNat NArith.
From Verif Require Import Base Ids NameTables Names Links Data Attrs Slab NodeApi Doc History Samples
  NamesProofs Types TypeSpec TypeProofs.
Import ListNotations.
Open Scope string_scope.
Open Scope list_scope.

(* C51: the tables are a bijection between ids and names. *)
Theorem C51_element_names e s : element_as_str e = Ok s <-> element_from_str s = Ok (Some e).
Proof. exact (proj1 element_bijection e s). Qed.
Print Assumptions C51_element_names.
Theorem C51_element_names_differ e1 e2 s : element_as_str e1 = Ok s -> element_as_str e2 = Ok s -> e1 = e2.
Proof. exact (proj2 element_bijection e1 e2 s). Qed.
Print Assumptions C51_element_names_differ.
Theorem C51_attribute_names a s : attribute_as_str a = Ok s <-> attribute_from_str s = Ok (Some a).
Proof. exact (proj1 attribute_bijection a s). Qed.
Print Assumptions C51_attribute_names.
Theorem C51_attribute_names_differ a1 a2 s : attribute_as_str a1 = Ok s -> attribute_as_str a2 = Ok s -> a1 = a2.
Proof. exact (proj2 attribute_bijection a1 a2 s). Qed.
Print Assumptions C51_attribute_names_differ.
Example C51_case : element_as_str E_LinearGradient = Ok (lit "linearGradient") /\
  element_from_str (lit "lineargradient") = Ok None /\ attribute_as_str A_StrokeDasharray = Ok (lit "stroke-dasharray") /\
  attribute_from_str (lit "stroke-dasharray") = Ok (Some A_StrokeDasharray) /\ attribute_from_str [] = Ok None.
Proof. vm_compute. tauto. Qed.

(* C52: lookups return for every string, every id has a name; a panic would be [Panic], not [Ok]. *)
Theorem C52_lookup_total s : (exists o, element_from_str s = Ok o) /\ (exists o, attribute_from_str s = Ok o).
Proof. exact (proj1 lookup_total s). Qed.
Print Assumptions C52_lookup_total.
Theorem C52_as_str_total : (forall e, exists s, element_as_str e = Ok s) /\ (forall a, exists s, attribute_as_str a = Ok s).
Proof. exact (proj2 lookup_total). Qed.
Print Assumptions C52_as_str_total.
Example C52_case : element_from_str (lit "zzzzzzzzzzzzzzzzzzzzzzzzzzzzzzz") = Ok None /\
  attribute_from_str [1114111%N; 0%N] = Ok None.
Proof. vm_compute. tauto. Qed.

(* C53: every class is the documented list of names; the classes are consistent. *)
Theorem C53_attribute_classes f names :
  In (f, names)
    [ (is_presentation, presentation_names); (is_non_inheritable, non_inherited_names);
      (is_animation_event, animation_event_names); (is_graphical_event, graphical_event_names);
      (is_document_event, document_event_names); (is_conditional_processing, conditional_names);
      (is_core, core_names); (is_fill, fill_names); (is_stroke, stroke_names) ] ->
  forall a, f a = true <-> exists x, In x names /\ attribute_as_str a = Ok (lit x).
Proof. exact (attr_class f names). Qed.
Print Assumptions C53_attribute_classes.
Theorem C53_element_classes f names :
  In (f, names)
    [ (eid_is_referenced, referenced_names); (eid_is_basic_shape, basic_shape_names); (eid_is_shape, shape_names);
      (eid_is_container, container_names); (eid_is_text_content, text_content_names);
      (eid_is_text_content_child, text_content_child_names); (eid_is_graphic, graphic_names);
      (eid_is_gradient, gradient_names); (eid_is_paint_server, paint_server_names);
      (eid_is_filter_primitive, filter_primitive_names) ] ->
  forall e, f e = true <-> exists x, In x names /\ element_as_str e = Ok (lit x).
Proof. exact (elem_class f names). Qed.
Print Assumptions C53_element_classes.
Theorem C53_attributes_consistent a :
  (is_inheritable a = true <-> is_presentation a = true /\ is_non_inheritable a = false) /\
  (is_non_inheritable a = true -> is_presentation a = true) /\
  (is_fill a = true -> is_presentation a = true) /\ (is_stroke a = true -> is_presentation a = true) /\
  ((exists v, default_value a = Some v) -> is_presentation a = true) /\
  (is_presentation a = true -> is_animation_event a = false /\ is_graphical_event a = false /\
     is_document_event a = false /\ is_conditional_processing a = false /\ is_core a = false).
Proof. exact (attr_consistent a). Qed.
Print Assumptions C53_attributes_consistent.
Theorem C53_elements_consistent e :
  (eid_is_basic_shape e = true -> eid_is_shape e = true) /\ (eid_is_shape e = true -> eid_is_graphic e = true) /\
  (eid_is_gradient e = true -> eid_is_paint_server e = true) /\
  (eid_is_paint_server e = true -> eid_is_referenced e = true) /\
  (eid_is_text_content_child e = true -> eid_is_text_content e = true).
Proof. exact (elem_consistent e). Qed.
Print Assumptions C53_elements_consistent.
(* the node and attribute methods: the class of the SVG name, and no class for anything else *)
Theorem C53_nodes D n f : reachable D ->
  of_node f D n = true <-> is_element D n = true /\ exists e, tag_name D n = QId e /\ f e = true.
Proof. exact (node_class D n f). Qed.
Print Assumptions C53_nodes.
Theorem C53_attributes f a : of_attr f a = true <-> exists id, a_name a = QId id /\ f id = true.
Proof. exact (attr_class_of f a). Qed.
Print Assumptions C53_attributes.
(* The same, method by method. *)
Theorem C53_attribute_methods m names :
  In (m, names)
    [ (attr_is_presentation, presentation_names); (attr_is_animation_event, animation_event_names);
      (attr_is_graphical_event, graphical_event_names); (attr_is_document_event, document_event_names);
      (attr_is_conditional_processing, conditional_names); (attr_is_core, core_names);
      (attr_is_fill, fill_names); (attr_is_stroke, stroke_names) ] ->
  forall a, m a = true <-> exists id x, a_name a = QId id /\ In x names /\ attribute_as_str id = Ok (lit x).
Proof. exact (attr_methods m names). Qed.
Print Assumptions C53_attribute_methods.
Theorem C53_inheritable a : attr_is_inheritable a = true <-> exists id, a_name a = QId id /\
  (exists x, In x presentation_names /\ attribute_as_str id = Ok (lit x)) /\
  ~ (exists x, In x non_inherited_names /\ attribute_as_str id = Ok (lit x)).
Proof. exact (attr_inherits a). Qed.
Print Assumptions C53_inheritable.
Theorem C53_node_methods D n m names : reachable D ->
  In (m, names)
    [ (node_is_referenced, referenced_names); (node_is_basic_shape, basic_shape_names); (node_is_shape, shape_names);
      (node_is_container, container_names); (node_is_text_content, text_content_names);
      (node_is_text_content_child, text_content_child_names); (node_is_graphic, graphic_names);
      (node_is_gradient, gradient_names); (node_is_paint_server, paint_server_names);
      (node_is_filter_primitive, filter_primitive_names) ] ->
  m D n = true <-> is_element D n = true /\ exists e x, tag_name D n = QId e /\ In x names /\ element_as_str e = Ok (lit x).
Proof. exact (node_methods D n m names). Qed.
Print Assumptions C53_node_methods.
Example C53_case : reachable doc /\ attr_is_presentation (mkAttr (QId A_Fill) VNone) = true /\
  attr_is_presentation (mkAttr (QName (lit "fill")) VNone) = false /\ default_value A_Fill = Some (VColor (mkColor 0 0 0)%N).
Proof. split; [exact doc_reachable|]. vm_compute. tauto. Qed.
