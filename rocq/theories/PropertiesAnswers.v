(* C87: the questions a program can ask about a node agree with each other. *)
From Coq Require Import List Bool PeanoNat NArith String.
From Verif Require Import Base Ids Links Tree ForestSpec TreeSpec Data Attrs Slab NodeApi Doc AttrSpec History Samples Values AskSpec AskProofs.
Import ListNotations.
Open Scope string_scope.
Open Scope list_scope.

(* C87: every node has exactly one type ... *)
Theorem C87_one_type D n : only_one [is_root D n; is_element D n; is_comment D n; is_text D n] /\
  (is_root D n = true <-> node_type D n = NRoot) /\ (is_element D n = true <-> node_type D n = NElement) /\
  (is_comment D n = true <-> node_type D n = NComment) /\ (is_text D n = true <-> node_type D n = NText).
Proof. split; [exact (one_type D n)|exact (type_answers D n)]. Qed.
Print Assumptions C87_one_type.
(* ... the root node of the document is the only root ... *)
Theorem C87_root D n : reachable D -> exists_node D n -> (is_root D n = true <-> n = droot D).
Proof. exact (root_answer D n). Qed.
Print Assumptions C87_root.
(* ... exactly the elements have a tag name, exactly the elements with an SVG name are SVG elements and
   have a tag id ... *)
Theorem C87_tag D n : reachable D ->
  (forall t, has_tag_name D n t = true <-> tag_name D n = t) /\
  (forall e, tag_id D n = Some e <-> tag_name D n = QId e) /\
  (is_svg_element D n = true <-> exists e, tag_id D n = Some e) /\
  (is_element D n = true <-> tag_name D n <> QName []).
Proof. exact (tag_answers D n). Qed.
Print Assumptions C87_tag.
(* ... other nodes have no tag id, id, attributes and links ... *)
Theorem C87_plain D n : reachable D -> is_element D n = false ->
  tag_id D n = None /\ has_id D n = false /\ attributes D n = [] /\ (forall a, uses D n a = 0).
Proof. exact (plain_answers D n). Qed.
Print Assumptions C87_plain.
Theorem C87_id D n : has_id D n = true <-> id_of D n <> [].
Proof. exact (id_answer D n). Qed.
Print Assumptions C87_id.
(* ... a node has a parent if it is below a node other than the root of the document ... *)
Theorem C87_parent D F n : reachable D -> shows (lk D) F -> exists_node D n ->
  (has_parent D n = true <-> exists p, parent_of F n = Some p /\ p <> droot D).
Proof. exact (parent_answer D F n). Qed.
Print Assumptions C87_parent.
(* ... has_attribute, get, get_value, len and is_empty tell the same about the attributes: get finds the one
   attribute of that name, len is the number of names for which has_attribute says yes ... *)
Theorem C87_attributes D n : reachable D ->
  (forall name, has_attribute D n name = true <-> In name (names_of (attributes D n))) /\
  (forall name, attrs_get (attributes D n) name = None <-> has_attribute D n name = false) /\
  (forall name a, attrs_get (attributes D n) name = Some a <-> In a (attributes D n) /\ a_name a = name) /\
  (forall name v, attrs_get_value (attributes D n) name = Some v <-> In (mkAttr name v) (attributes D n)) /\
  (attrs_is_empty (attributes D n) = true <-> forall name, has_attribute D n name = false) /\
  (attrs_is_empty (attributes D n) = true <-> attrs_len (attributes D n) = 0) /\
  (forall l, NoDup l -> (forall name, In name l <-> has_attribute D n name = true) -> attrs_len (attributes D n) = List.length l).
Proof. exact (attr_answers D n). Qed.
Print Assumptions C87_attributes.
(* ... and svg() on an iterator over nodes or attributes gives the SVG elements and SVG attributes, in order,
   each with its id. *)
Theorem C87_svg_nodes D l : reachable D ->
  map snd (filter_svg D l) = filter (is_svg_element D) l /\ forall e n, In (e, n) (filter_svg D l) -> tag_id D n = Some e.
Proof. exact (svg_nodes_answer D l). Qed.
Print Assumptions C87_svg_nodes.
Theorem C87_svg_attributes l : map snd (attrs_svg l) = filter attribute_is_svg l /\ forall i a, In (i, a) (attrs_svg l) -> a_name a = QId i.
Proof. exact (svg_attrs_answer l). Qed.
Print Assumptions C87_svg_attributes.
Example C87_case : reachable doc /\ map (is_root doc) [0; 1; 6] = [true; false; false] /\ map (is_svg_element doc) [0; 3; 6] = [false; true; false] /\
  map (has_parent doc) [0; 1; 2; 6] = [false; false; true; true] /\ attrs_len (attributes doc 3) = 2 /\ attrs_is_empty (attributes doc 6) = true /\
  filter_svg doc [0; 1; 6; 3] = [(E_Svg, 1); (E_Rect, 3)] /\ has_id doc 7 = true /\ is_element doc 6 = false /\ exists_node doc 6.
Proof.
  split; [exact doc_reachable|]. repeat (split; [vm_compute; reflexivity|]). vm_compute. repeat constructor.
Qed.
