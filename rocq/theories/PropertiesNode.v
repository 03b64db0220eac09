(* C62-C66: finding the svg element, new nodes and setters, edits in place, and which nodes are alive. *)
From Coq Require Import List Bool PeanoNat NArith String Lia.
From Verif Require Import Base Ids Links Tree ForestSpec TreeSpec Data Attrs Slab NodeApi Doc History DocSpec
  Replay HistoryProofs TreeApi ApiProofs DocApi TidyProofs RootSpec RootExact AttrSpec NodeSpec NodeProofs LifeSpec LifeProofs Samples.
Import ListNotations.
Open Scope string_scope.

(* C62: svg_element() gives the first child of the root node that is an element with the tag name svg,
   and None only if there is none. *)
Theorem C62_svg_element D F : reachable D -> shows (lk D) F ->
  (forall n, svg_element D = Ok (Some n) <->
     exists pre post, children_of F (droot D) = (pre ++ n :: post)%list /\ is_element D n = true /\
       tag_name D n = QId E_Svg /\ forall x, In x pre -> tag_name D x <> QId E_Svg) /\
  (svg_element D = Ok None <-> forall x, In x (children_of F (droot D)) -> tag_name D x <> QId E_Svg).
Proof. exact (svg_element_api D F). Qed.
Print Assumptions C62_svg_element.
(* Two elements and a comment before the svg element, and another svg element after it. *)
Definition late_svg_ops : list op :=
  [ OCreateNode NComment (lit "svg"); OAppend 0 1; OCreateElement (QName (lit "svg")); OAppend 0 2;
    OCreateElement (QId E_G); OAppend 0 3; OCreateElement (QId E_Svg); OAppend 0 4; OCreateElement (QId E_Svg); OAppend 0 5 ].
Definition late_svg : dom := get (run all_check late_svg_ops).
Definition late_svg_reachable : reachable late_svg := sample_reachable late_svg_ops eq_refl.
Example C62_case : reachable late_svg /\ svg_element late_svg = Ok (Some 4) /\ reachable cyclic /\ svg_element cyclic = Ok None.
Proof.
  split; [exact late_svg_reachable|]. split; [vm_compute; reflexivity|]. split; [exact cyclic_reachable|].
  vm_compute. reflexivity.
Qed.

(* C63: new nodes and setters. *)
Theorem C63_create_element D t : reachable D ->
  (t = QName [] -> create_element t D = Panic PAssert) /\
  (t <> QName [] -> exists n D', create_element t D = Ok (n, D') /\ new_node n D D' /\
     node_type D' n = NElement /\ tag_name D' n = t /\ text_of D' n = []).
Proof. exact (create_element_api D t). Qed.
Print Assumptions C63_create_element.
Theorem C63_create_node D ty s : reachable D ->
  (ty = NElement \/ ty = NRoot -> create_node ty s D = Panic PAssert) /\
  (ty <> NElement -> ty <> NRoot -> exists n D', create_node ty s D = Ok (n, D') /\ new_node n D D' /\
     node_type D' n = ty /\ tag_name D' n = QName [] /\ text_of D' n = s).
Proof. exact (create_node_api D ty s). Qed.
Print Assumptions C63_create_node.
Theorem C63_set_text D n s :
  (is_element D n = true -> set_text n s D = Panic PDebugAssert) /\
  (is_element D n = false -> exists D', set_text n s D = Ok D' /\ only_node n D D' /\ same_count D D' /\
     text_of D' n = s /\ same_but_text n D D').
Proof. exact (set_text_api D n s). Qed.
Print Assumptions C63_set_text.
Theorem C63_text_mut D n s : let D' := text_mut n s D in
  only_node n D D' /\ same_count D D' /\ text_of D' n = s /\ same_but_text n D D'.
Proof. exact (text_mut_api D n s). Qed.
Print Assumptions C63_text_mut.
Theorem C63_set_id D n s :
  (is_element D n = false -> set_id n s D = Panic PDebugAssert) /\
  (is_element D n = true -> exists D', set_id n s D = Ok D' /\ only_node n D D' /\ same_count D D' /\
     id_of D' n = s /\ same_but_id n D D').
Proof. exact (set_id_api D n s). Qed.
Print Assumptions C63_set_id.
Theorem C63_set_tag_name D n t :
  (is_element D n = false \/ t = QName [] -> exists p, set_tag_name n t D = Panic p) /\
  (is_element D n = true -> t <> QName [] -> exists D', set_tag_name n t D = Ok D' /\ only_node n D D' /\ same_count D D' /\
     tag_name D' n = t /\ same_but_tag n D D').
Proof. exact (set_tag_api D n t). Qed.
Print Assumptions C63_set_tag_name.
Example C63_case : reachable doc /\ is_element doc 3 = true /\ is_element doc 6 = false /\
  text_of doc 6 = lit "hi" /\ id_of doc 7 = lit "lg" /\ NComment <> NElement /\ NComment <> NRoot /\
  QId E_Svg <> QName [].
Proof. split; [exact doc_reachable|]. do 4 (split; [vm_compute; reflexivity|]). easy. Qed.

(* C64 as stated is false.  Writing a link in place leaves the document in a state in which
   remove_attribute of that very attribute panics; overwriting a link in place leaves a node among the
   users of another that has no link to it; renaming in place gives two attributes of one name. *)
Theorem C64_refuted :
  (exists D n name a, reachable_orderly D /\ exists_node D n /\ has_attribute D n name = true /\ a_name a = name /\
     remove_attribute n name (attribute_mut n name a D) = Panic PUnwrap) /\
  (exists D n m name a, reachable_orderly D /\ exists_node D n /\ has_attribute D n name = true /\ a_name a = name /\
     let D' := attribute_mut n name a D in In n (linked_nodes D' m) /\
     forall x, In x (attributes D' n) -> link_target (a_value x) <> Some m) /\
  (exists D n name a, reachable_orderly D /\ exists_node D n /\ has_attribute D n name = true /\
     link_target (a_value a) = None /\ ~ NoDup (map a_name (attributes (attribute_mut n name a D) n))).
Proof.
  split; [|split].
  - exists doc, 3, (QId A_Opacity), (mkAttr (QId A_Opacity) (VLink 8)). split; [exact doc_orderly|].
    split; [apply Nat.leb_le; vm_compute; reflexivity|]. do 2 (split; [vm_compute; reflexivity|]). vm_compute. reflexivity.
  - exists doc, 3, 7, (QId A_Fill), (mkAttr (QId A_Fill) (VString (lit "red"))). split; [exact doc_orderly|].
    split; [apply Nat.leb_le; vm_compute; reflexivity|]. do 2 (split; [vm_compute; reflexivity|]). split; [vm_compute; tauto|].
    intros x Hx. vm_compute in Hx. destruct Hx as [<-|[<-|[]]]; discriminate.
  - exists doc, 3, (QId A_Opacity), (mkAttr (QId A_Fill) (VString (lit "red"))). split; [exact doc_orderly|].
    split; [apply Nat.leb_le; vm_compute; reflexivity|]. do 2 (split; [vm_compute; reflexivity|]).
    vm_compute. intros H. inversion H as [|x l H1 H2]. apply H1. now left.
Qed.
Print Assumptions C64_refuted.
(* C64, for edits that neither write nor overwrite a link and do not take the name of another
   attribute: the attribute is replaced where it stands, nothing else changes, and the document is
   one that all the other theorems about reachable documents speak of. *)
Theorem C64_edit_partial D n name a : reachable D -> exists_node D n ->
  link_target (a_value a) = None ->
  (forall old, In old (attributes D n) -> a_name old = name -> link_target (a_value old) = None) ->
  (a_name a = name \/ has_attribute D n (a_name a) = false) ->
  let D' := attribute_mut n name a D in
  reachable D' /\ only_node n D D' /\ linked_nodes D' n = linked_nodes D n /\
  (forall pre old post, attributes D n = (pre ++ old :: post)%list -> a_name old = name ->
     attributes D' n = (pre ++ a :: post)%list) /\
  (has_attribute D n name = false -> attributes D' n = attributes D n).
Proof. exact (edit_plain_api D n name a). Qed.
Print Assumptions C64_edit_partial.
(* C64, exactly, for an edit of an attribute that is there: the new attribute stands where the old one stood,
   nothing else changes, and the links and the lists of users still fit together if and only if the new value
   points to the node the old one points to, or neither points to one; the names of the attributes are still
   distinct if and only if the new name is the old one or not the name of another attribute. *)
Theorem C64_exact_partial D n name a pre old post : reachable D ->
  attributes D n = (pre ++ old :: post)%list -> a_name old = name ->
  let D' := attribute_mut n name a D in
  only_node n D D' /\ linked_nodes D' n = linked_nodes D n /\ attributes D' n = (pre ++ a :: post)%list /\
  ((forall x b, times x (linked_nodes D' b) = uses D' x b) <-> link_target (a_value a) = link_target (a_value old)) /\
  (NoDup (map a_name (attributes D' n)) <-> a_name a = name \/ has_attribute D n (a_name a) = false).
Proof. exact (edit_exact D n name a pre old post). Qed.
Print Assumptions C64_exact_partial.
(* Here the fallback of a paint is changed in place: the target stays, so that all fits. *)
Example C64_exact_case : reachable doc /\
  attributes doc 3 = ([] ++ mkAttr (QId A_Fill) (VPaint 7 (Some FNone)) :: [mkAttr (QId A_Opacity) (VString (lit "0.5"))])%list /\
  let D' := attribute_mut 3 (QId A_Fill) (mkAttr (QId A_Fill) (VPaint 7 None)) doc in
  linked_nodes D' 7 = [3; 4; 8] /\ uses D' 3 7 = 1 /\
  uses (attribute_mut 3 (QId A_Fill) (mkAttr (QId A_Fill) (VPaint 8 None)) doc) 3 7 = 0.
Proof. split; [exact doc_reachable|]. vm_compute. tauto. Qed.
Example C64_case : reachable doc /\ exists_node doc 3 /\ has_attribute doc 3 (QId A_Opacity) = true /\
  (forall old, In old (attributes doc 3) -> a_name old = QId A_Opacity -> link_target (a_value old) = None) /\
  attributes (attribute_mut 3 (QId A_Opacity) (mkAttr (QId A_Opacity) (VString (lit "1"))) doc) 3 =
    [mkAttr (QId A_Fill) (VPaint 7 (Some FNone)); mkAttr (QId A_Opacity) (VString (lit "1"))].
Proof.
  split; [exact doc_reachable|]. split; [apply Nat.leb_le; vm_compute; reflexivity|]. split; [vm_compute; reflexivity|].
  split; [|vm_compute; reflexivity]. intros old H. vm_compute in H. destruct H as [<-|[<-|[]]]; [discriminate|reflexivity].
Qed.

(* C65 as stated is false.  The root pointer of a node that was detached stays, and its node may be
   freed: then root() unwraps a dead pointer.  Also, appending to a removed node that nobody holds
   leaves a child whose parent is gone. *)
Definition dead_root_ops : list op :=
  [ OCreateElement (QId E_G); OCreateElement (QId E_Rect); OAppend 1 2; ODetach 2; ORemoveNode 1 ].
Definition dead_root : dom := get (run orderly_check dead_root_ops).
Lemma dead_root_orderly : reachable_orderly dead_root.
Proof. apply (run_orderly dead_root_ops). apply get_ok. vm_compute. reflexivity. Qed.
Definition dead_parent_ops : list op :=
  [ OCreateElement (QId E_G); OCreateElement (QId E_Rect); ORemoveNode 1; OAppend 1 2 ].
Definition dead_parent : dom := get (run tame_check dead_parent_ops).
Lemma dead_parent_tame : reachable_tame dead_parent.
Proof. apply (run_tame dead_parent_ops). apply get_ok. vm_compute. reflexivity. Qed.
Theorem C65_refuted :
  (exists D H n, reachable_orderly D /\ In n H /\ is_detached D n = false /\ freed D H (root_of (lk D) n)) /\
  (exists D H n p, reachable_tame D /\ In n H /\ is_detached D n = false /\ parent (lk D) n = Some p /\ freed D H p).
Proof.
  split.
  - exists dead_root, [2], 2. split; [exact dead_root_orderly|]. split; [now left|]. split; [vm_compute; reflexivity|].
    apply orderly_freed; [exact dead_root_orderly|vm_compute; discriminate|]. split; [vm_compute; reflexivity|].
    change (root_of (lk dead_root) 2) with 1. intros [|[]]. discriminate.
  - exists dead_parent, [2], 2, 1. split; [exact dead_parent_tame|]. split; [now left|].
    do 2 (split; [vm_compute; reflexivity|]). constructor; [|intros [|[]]; discriminate|].
    + intros [E|E]; [vm_compute in E; discriminate|]. vm_compute in E. intuition discriminate.
    + intros m Hm. exfalso. pose proof (tame_reachable _ dead_parent_tame) as R.
      destruct (Nat.lt_ge_cases m 3) as [Hlt|Hge].
      * destruct m as [|[|[|m]]]; [| | |lia]; vm_compute in Hm; intuition (try discriminate); destruct H as (x & [] & _).
      * pose proof (blank_strong dead_parent m 1 R) as Hb. apply Hb in Hm. unfold exists_node in Hm.
        change (fresh dead_parent) with 3 in Hm. lia.
Qed.
Print Assumptions C65_refuted.
(* C65, without root(), if removed nodes are not used: whatever handles the user keeps, no getter meets
   a freed node. *)
Theorem C65_alive_partial D n m H : reachable_orderly D -> neighbour D n m -> ~ freed D H m.
Proof. exact (orderly_alive D n m H). Qed.
Print Assumptions C65_alive_partial.
(* C65 for root(), for nodes of the document in histories for which C11 is proved. *)
Theorem C65_root_partial D H n : reachable_ready D -> top_of (lk D) n (droot D) ->
  root_of (lk D) n = droot D /\ ~ freed D H (root_of (lk D) n).
Proof. exact (root_alive D H n). Qed.
Print Assumptions C65_root_partial.
Example C65_case : reachable_orderly doc /\ neighbour doc 3 7 /\ neighbour doc 7 3 /\ neighbour doc 3 2 /\
  neighbour doc 4 3 /\ reachable_ready doc /\ top_of (lk doc) 1 (droot doc).
Proof.
  split; [exact doc_orderly|]. split.
  { do 5 right. left. exists (mkAttr (QId A_Fill) (VPaint 7 (Some FNone))). split; [vm_compute; tauto|reflexivity]. }
  split; [do 6 right; vm_compute; tauto|]. split; [left; vm_compute; reflexivity|].
  split; [do 4 right; left; vm_compute; reflexivity|]. split; [exact (leafy_ready doc doc_leafy)|].
  apply (top_up _ 1 0); [vm_compute; reflexivity|]. apply top_self. vm_compute. reflexivity.
Qed.

(* C66 as stated is false: two removed nodes that were linked afterwards keep each other alive. *)
Theorem C66_refuted : exists D n, reachable_tame D /\ exists_node D n /\ is_detached D n = true /\ ~ freed D [] n.
Proof.
  exists zombie, 3. split; [exact zombie_tame|]. split; [apply Nat.leb_le; vm_compute; reflexivity|].
  split; [vm_compute; reflexivity|]. apply (cycle_not_freed zombie [] 3 7).
  - right. right. left. exists (mkAttr (QId A_Fill) (VPaint 7 None)). split; [vm_compute; tauto|reflexivity].
  - right. right. right. vm_compute. tauto.
Qed.
Print Assumptions C66_refuted.
(* C66, if removed nodes are not used: the nodes that are freed are exactly the removed ones that the
   user does not hold. *)
Theorem C66_freed_partial D H n : reachable_orderly D -> n <> droot D ->
  (freed D H n <-> is_detached D n = true /\ ~ In n H).
Proof. exact (orderly_freed D H n). Qed.
Print Assumptions C66_freed_partial.
Example C66_case : reachable_orderly dead_root /\ 1 <> droot dead_root /\ is_detached dead_root 1 = true /\
  ~ In 1 [2] /\ is_detached dead_root 2 = false.
Proof. split; [exact dead_root_orderly|]. vm_compute. intuition discriminate. Qed.
