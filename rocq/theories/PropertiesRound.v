(* C57: writing and parsing again. *)
From Coq Require Import String List Bool PeanoNat NArith.
From Verif Require Import Base Ids Names Links Tree ForestSpec TreeSpec Data Attrs Slab NodeApi Doc History DocSpec
  HistoryProofs ApiProofs DocApi Samples Text TextSpec TextSamples Writer WriterSpec WriterSamples Parser ParserSpec ParserFacts
  ParserMeaning ParserStatements ParserSamples RoundSpec RoundMatch RoundProofs RoundSamples.
Import ListNotations.
Open Scope string_scope.
Open Scope nat_scope.
Open Scope list_scope.

(* C57: a document that is written and parsed again is the same document: there is a way to read the
   output as XML, and whatever white space the writer added, parsing gives a document with the same tree,
   names, ids, texts and attributes, whose references lead to the same places.  Missing from the full claim:
   documents that are not portable (values XML cannot hold as they are, custom names, style elements,
   neighbouring texts, nested text elements) and texts that text processing changes. *)
Theorem C57_round_trip_partial P W D F t : reachable D -> shows (lk D) F -> tree_at F t -> t_node t = droot D ->
  portable P W D F t -> settled D F t -> p_sheet P [] = [] ->
  exists evs items, write_dom W D = Ok evs /\ read_back evs = Some items /\ (exists top, reads_file items top) /\
    forall top, reads_file items top ->
      exists D' t', parse_svg P (Some top) = Ok (POk D') /\ document_tree D' t' /\ same_document D t D' t'.
Proof. exact (round_trip P W D F t). Qed.
Print Assumptions C57_round_trip_partial.
Example C57_case : reachable rdoc /\
  (exists F, shows (lk rdoc) F /\ tree_at F rdoc_tree /\ t_node rdoc_tree = droot rdoc /\
     portable PR round_writers rdoc F rdoc_tree /\ settled rdoc F rdoc_tree) /\ p_sheet PR [] = [] /\
  linked_nodes rdoc 4 = [3; 5].
Proof.
  split; [exact (tame_reachable _ rdoc_tame)|]. split; [|vm_compute; tauto].
  destruct rdoc_forest as (F & S & X & Ht). exists F. split; [exact S|]. split; [exact Ht|]. split; [vm_compute; reflexivity|].
  split; [exact (rdoc_portable F S X Ht)|exact (rdoc_settled F S)].
Qed.
(* Two neighbouring texts come back as one. *)
Theorem C57_neighbours_refuted : exists P W D F t evs items top,
  reachable_tame D /\ shows (lk D) F /\ tree_at F t /\ t_node t = droot D /\
  write_dom W D = Ok evs /\ read_back evs = Some items /\ reads_file items top /\
  forall D' t', parse_svg P (Some top) = Ok (POk D') -> document_tree D' t' -> ~ same_document D t D' t'.
Proof.
  destruct (sample_forest adjacent adjacent_tame) as (F & S & _); [vm_compute; reflexivity|].
  destruct (ok_case (write_dom round_writers adjacent) (fun evs => read_back evs = Some adjacent_items)) as (evs & E & Er);
    [vm_compute; reflexivity|].
  exists PR, round_writers, adjacent, F, (T 0 [T 1 [T 2 [T 3 []; T 4 []]]]), evs, adjacent_items, adjacent_top.
  split; [exact adjacent_tame|]. split; [exact S|].
  split; [apply (tree_b_ok adjacent F _ S); vm_compute; reflexivity|]. split; [vm_compute; reflexivity|].
  split; [exact E|]. split; [exact Er|]. split; [exact adjacent_reads|]. clear.
  intros D' t' Ep Ht' (Hs & _).
  destruct (parsed_case PR adjacent_top (fun D => tree_b (lk D) (T 0 [T 1 [T 2 [T 3 []]]]) = true /\ droot D = 0))
    as (D & E & H2 & H3); [vm_compute; tauto|].
  assert (D = D') as -> by congruence. pose proof Ht' as (F & S & _).
  assert (t' = T 0 [T 1 [T 2 [T 3 []]]]) as ->.
  { apply (document_unique D'); [exact Ht'|]. exists F. split; [exact S|]. split; [exact (tree_b_ok D' F _ S H2)|]. rewrite H3. reflexivity. }
  clear - Hs. apply RoundMatch.shape_length in Hs. discriminate Hs.
Qed.
Print Assumptions C57_neighbours_refuted.
(* Attribute values are not escaped: the output may not be XML. *)
Theorem C57_not_escaped_refuted : exists W D F t evs items,
  reachable_tame D /\ shows (lk D) F /\ tree_at F t /\ t_node t = droot D /\
  write_dom W D = Ok evs /\ read_back evs = Some items /\ forall top, ~ reads_file items top.
Proof.
  destruct (sample_forest ampersand ampersand_tame) as (F & S & _); [vm_compute; reflexivity|].
  destruct (ok_case (write_dom round_writers ampersand) (fun evs => read_back evs = Some ampersand_items)) as (evs & E & Er);
    [vm_compute; reflexivity|].
  exists round_writers, ampersand, F, (T 0 [T 1 []]), evs, ampersand_items.
  split; [exact ampersand_tame|]. split; [exact S|].
  split; [apply (tree_b_ok ampersand F _ S); vm_compute; reflexivity|]. split; [vm_compute; reflexivity|].
  split; [exact E|]. split; [exact Er|]. exact ampersand_unreadable.
Qed.
Print Assumptions C57_not_escaped_refuted.
