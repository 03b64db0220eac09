(* C78: documents with the same content are written alike; saving again what was loaded. *)
From Coq Require Import String List Bool PeanoNat NArith.
From Verif Require Import Base Ids Names Links Tree ForestSpec TreeSpec Data Attrs Slab NodeApi Doc History DocSpec
  HistoryProofs ApiProofs DocApi Samples Text TextSpec TextSamples Writer WriterSpec WriterSamples Parser ParserSpec ParserFacts
  ParserMeaning ParserStatements ParserSamples RoundSpec RoundMatch RoundProofs RoundSamples ResaveSpec ResaveProofs ResaveSamples.
Import ListNotations.
Open Scope string_scope.
Open Scope nat_scope.
Open Scope list_scope.

(* C78: two documents with the same trees, names, ids, texts and attributes, whose references lead to the
   same places and whose custom attributes are stored in the same order, give the same output.  Neither the
   order in which nodes were made nor the order in which SVG attributes were set matters. *)
Theorem C78_same_output W D t D' t' : reachable D -> reachable D' -> document_tree D t -> document_tree D' t' ->
  same_document D t D' t' -> same_order t t' D D' -> write_dom W D' = write_dom W D.
Proof. exact (same_output W D t D' t'). Qed.
Print Assumptions C78_same_output.
Example C78_case : reachable made /\ reachable remade /\ document_tree made made_tree /\ document_tree remade remade_tree /\
  same_document made made_tree remade remade_tree /\ same_order made_tree remade_tree made remade /\
  map a_name (attributes made 3) = [QId A_Fill; QId A_Stroke; QName (lit "a"); QName (lit "b")] /\
  map a_name (attributes remade 1) = [QId A_Stroke; QName (lit "a"); QId A_Fill; QName (lit "b")] /\
  write_dom round_writers remade = Ok
    [ EStart (lit "svg"); EAttr (lit "xmlns") (lit "http://www.w3.org/2000/svg");
      EStart (lit "linearGradient"); EAttr (lit "id") (lit "g"); EEnd;
      EStart (lit "rect"); ERaw (lit "fill") (lit "url(#g) none"); ERaw (lit "stroke") (lit "none");
      ERaw (lit "a") (lit "1"); ERaw (lit "b") (lit "2"); EEnd; EEnd ].
Proof.
  split; [exact (tame_reachable _ made_tame)|]. split; [exact (tame_reachable _ remade_tame)|].
  split; [apply (sample_document _ _ made_tame); vm_compute; reflexivity|].
  split; [apply (sample_document _ _ remade_tame); vm_compute; reflexivity|].
  split; [exact made_same|]. split; [exact made_order|]. vm_compute. tauto.
Qed.
(* The order of custom attributes does matter. *)
Theorem C78_custom_order : exists W D t D' t', reachable D /\ reachable D' /\ document_tree D t /\ document_tree D' t' /\
  same_document D t D' t' /\ write_dom W D' <> write_dom W D.
Proof.
  exists round_writers, made, made_tree, swapped, made_tree.
  split; [exact (tame_reachable _ made_tame)|]. split; [exact (tame_reachable _ swapped_tame)|].
  split; [apply (sample_document _ _ made_tame); vm_compute; reflexivity|].
  split; [apply (sample_document _ _ swapped_tame); vm_compute; reflexivity|].
  split; [exact swapped_same|]. vm_compute. discriminate.
Qed.
Print Assumptions C78_custom_order.

(* C78: a document of C57 that is saved, loaded and saved again gives the same output, whatever white space
   the writer added. *)
Theorem C78_resave P W D F t : reachable D -> shows (lk D) F -> tree_at F t -> t_node t = droot D ->
  portable P W D F t -> settled D F t -> p_sheet P [] = [] ->
  exists evs items, write_dom W D = Ok evs /\ read_back evs = Some items /\ (exists top, reads_file items top) /\
    forall top, reads_file items top -> exists D', parse_svg P (Some top) = Ok (POk D') /\ write_dom W D' = Ok evs.
Proof. exact (resave P W D F t). Qed.
Print Assumptions C78_resave.
Example C78_resave_case : reachable rdoc /\
  (exists F, shows (lk rdoc) F /\ tree_at F rdoc_tree /\ t_node rdoc_tree = droot rdoc /\
     portable PR round_writers rdoc F rdoc_tree /\ settled rdoc F rdoc_tree) /\ p_sheet PR [] = [].
Proof.
  split; [exact (tame_reachable _ rdoc_tame)|]. split; [|reflexivity].
  destruct rdoc_forest as (F & S & X & Ht). exists F. split; [exact S|]. split; [exact Ht|]. split; [vm_compute; reflexivity|].
  split; [exact (rdoc_portable F S X Ht)|exact (rdoc_settled F S)].
Qed.
