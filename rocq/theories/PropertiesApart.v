(* C89: calls that concern different things can change places. *)
From Coq Require Import List Bool PeanoNat NArith String Sorting.Permutation.
From Verif Require Import Base Ids Links Tree ForestSpec TreeSpec TreeApi Data Attrs Slab NodeApi AttrSpec Doc History DocSpec
  HistoryProofs ApiProofs Replay Samples UndoSpec ApartSpec ApartProofs.
Import ListNotations.
Open Scope list_scope.

(* C89 as stated is false: of two links that two nodes are to make to each other the first one is made. *)
Definition pair_ops : list op :=
  [OCreateElement (QId E_G); OCreateElement (QId E_G); OSetId 1 (lit "a"); OSetId 2 (lit "b")].
Definition pair_doc : dom := get (run all_check pair_ops).
Definition href_to (t : nid) : attr := mkAttr (QId A_Href) (VLink t).
Theorem C89_refuted : exists D n m a b D' D'', reachable D /\ exists_node D n /\ exists_node D m /\ n <> m /\
  both_calls (OSetAttributeChecked n a) (OSetAttributeChecked m b) D = Ok D' /\
  both_calls (OSetAttributeChecked m b) (OSetAttributeChecked n a) D = Ok D'' /\ attributes D' n <> attributes D'' n.
Proof.
  assert (X : exists D', both_calls (OSetAttributeChecked 1 (href_to 2)) (OSetAttributeChecked 2 (href_to 1)) pair_doc = Ok D' /\
    attributes D' 1 = [href_to 2]) by (apply ok_case; vm_compute; reflexivity).
  assert (Y : exists D', both_calls (OSetAttributeChecked 2 (href_to 1)) (OSetAttributeChecked 1 (href_to 2)) pair_doc = Ok D' /\
    attributes D' 1 = []) by (apply ok_case; vm_compute; reflexivity).
  destruct X as (D' & E & A), Y as (D'' & E' & A'). exists pair_doc, 1, 2, (href_to 2), (href_to 1), D', D''.
  split; [exact (sample_reachable pair_ops eq_refl)|]. do 2 (split; [apply Nat.leb_le; vm_compute; reflexivity|]).
  split; [discriminate|]. split; [exact E|]. split; [exact E'|]. rewrite A, A'. discriminate.
Qed.
Print Assumptions C89_refuted.

(* Moving nodes and changing what they contain: the very same document, and a panic in one order if and only if
   there is one in the other. *)
Theorem C89_moves D o1 o2 n D' : moves o1 -> changes o2 = Some n ->
  both_calls o1 o2 D = Ok D' <-> both_calls o2 o1 D = Ok D'.
Proof. exact (move_and_change D o1 o2 n D'). Qed.
Print Assumptions C89_moves.
(* Changing what two different nodes contain. *)
Theorem C89_changes_partial D o1 o2 D' : reachable D -> legal o1 D -> legal o2 D -> apart o1 o2 ->
  both_calls o1 o2 D = Ok D' ->
  exists D'', both_calls o2 o1 D = Ok D'' /\ as_before D' D'' /\ lk D'' = lk D' /\ lk D' = lk D.
Proof. exact (change_and_change D o1 o2 D'). Qed.
Print Assumptions C89_changes_partial.
(* Whether a link is refused does not depend on changes of nodes other than its two ends. *)
Theorem C89_refusal D o n a m D' : reachable D -> legal o D -> changes o = Some m -> m <> n -> link_target (a_value a) <> Some m ->
  step o D = Ok D' -> refused D' n a = refused D n a.
Proof. exact (same_answer D o n a m D'). Qed.
Print Assumptions C89_refusal.

Example C89_case :
  moves (OAppend 7 3) /\ changes (OSetAttribute 3 (mkAttr (QId A_Stroke) (VPaint 8 None))) = Some 3 /\
  (exists D', both_calls (OAppend 7 3) (OSetAttribute 3 (mkAttr (QId A_Stroke) (VPaint 8 None))) doc = Ok D') /\
  reachable doc /\ legal (OSetAttribute 3 (mkAttr (QId A_Stroke) (VPaint 7 None))) doc /\ legal (ORemoveAttribute 4 (QId A_Stroke)) doc /\
  apart (OSetAttribute 3 (mkAttr (QId A_Stroke) (VPaint 7 None))) (ORemoveAttribute 4 (QId A_Stroke)) /\
  (exists D', both_calls (OSetAttribute 3 (mkAttr (QId A_Stroke) (VPaint 7 None))) (ORemoveAttribute 4 (QId A_Stroke)) doc = Ok D') /\
  (exists D', step (ORemoveAttribute 8 (QId A_Href)) doc = Ok D').
Proof.
  split; [exact Logic.I|]. split; [reflexivity|]. split; [eexists; vm_compute; reflexivity|]. split; [exact doc_reachable|].
  split; [apply legalb_ok; vm_compute; reflexivity|]. split; [apply legalb_ok; vm_compute; reflexivity|].
  split; [exists 3, 4; repeat split; discriminate|]. split; eexists; vm_compute; reflexivity.
Qed.
