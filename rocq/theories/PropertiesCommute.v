(* C95: two moves of different nodes can change places. *)
From Coq Require Import List Bool PeanoNat NArith String.
From Verif Require Import Base Ids Links Tree ForestSpec TreeSpec TreeApi Data Attrs Slab NodeApi AttrSpec Doc History DocSpec
  HistoryProofs ApiProofs Replay Samples TextSamples Writer WriterSpec WriterSamples UndoSpec ApartSpec CommuteSpec CommuteProofs.
Import ListNotations.
Open Scope list_scope.

(* C95 as stated is false: of two nodes appended to the same node the second one is the last child. *)
Theorem C95_refuted : exists D p n m D1 D2, reachable D /\ acyclic_dom D /\ n <> m /\
  legal (OAppend p n) D /\ legal (OAppend p m) D /\
  both_calls (OAppend p n) (OAppend p m) D = Ok D1 /\ both_calls (OAppend p m) (OAppend p n) D = Ok D2 /\
  last_child (lk D1) p = Some m /\ last_child (lk D2) p = Some n.
Proof.
  assert (X : exists D', both_calls (OAppend 7 3) (OAppend 7 4) doc = Ok D' /\ last_child (lk D') 7 = Some 4)
    by (apply ok_case; vm_compute; reflexivity).
  assert (Y : exists D', both_calls (OAppend 7 4) (OAppend 7 3) doc = Ok D' /\ last_child (lk D') 7 = Some 3)
    by (apply ok_case; vm_compute; reflexivity).
  destruct X as (D1 & E1 & A1), Y as (D2 & E2 & A2). exists doc, 7, 3, 4, D1, D2.
  split; [exact doc_reachable|]. split; [exact doc_acyclic|]. split; [discriminate|].
  do 2 (split; [apply legalb_ok; vm_compute; reflexivity|]). tauto.
Qed.
Print Assumptions C95_refuted.

(* And of two moves to different places one order may panic when the other does not (see C06). *)
Theorem C95_panic_shows : exists D o1 o2 D1, reachable D /\ acyclic_dom D /\ legal o1 D /\ legal o2 D /\ apart_moves o1 o2 /\
  both_calls o1 o2 D = Ok D1 /\ both_calls o2 o1 D = Panic PBorrow.
Proof.
  assert (X : exists D', both_calls (OAppend 1 3) (OPrepend 1 8) doc = Ok D') by (eexists; vm_compute; reflexivity).
  destruct X as (D1 & E1). exists doc, (OAppend 1 3), (OPrepend 1 8), D1.
  split; [exact doc_reachable|]. split; [exact doc_acyclic|]. do 2 (split; [apply legalb_ok; vm_compute; reflexivity|]).
  split; [exists 3, 8, (LastIn 1), (FirstIn 1); repeat split; discriminate|]. split; [exact E1|]. vm_compute. reflexivity.
Qed.
Print Assumptions C95_panic_shows.

(* Moves of different nodes to different places: if both orders return, every getter gives the same answers. *)
Theorem C95_moves_partial D o1 o2 D1 D2 : reachable D -> apart_moves o1 o2 ->
  both_calls o1 o2 D = Ok D1 -> both_calls o2 o1 D = Ok D2 -> as_before D1 D2.
Proof. exact (moves_commute D o1 o2 D1 D2). Qed.
Print Assumptions C95_moves_partial.

(* And the same file is written. *)
Theorem C95_written_partial W D o1 o2 D1 D2 : reachable D -> legal o1 D -> legal o2 D -> apart_moves o1 o2 ->
  both_calls o1 o2 D = Ok D1 -> both_calls o2 o1 D = Ok D2 -> acyclic_dom D1 -> write_dom W D2 = write_dom W D1.
Proof. exact (moves_written W D o1 o2 D1 D2). Qed.
Print Assumptions C95_written_partial.

(* Two nodes of a document without cycles can be detached in either order: both orders return. *)
Theorem C95_detach D n m : reachable D -> acyclic_dom D -> exists_node D n -> exists_node D m -> n <> m ->
  exists D1 D2, both_calls (ODetach n) (ODetach m) D = Ok D1 /\ both_calls (ODetach m) (ODetach n) D = Ok D2 /\ as_before D1 D2.
Proof. exact (detaches_commute D n m). Qed.
Print Assumptions C95_detach.

(* One gradient is moved to the front of a node, and the other, its neighbour, to the end of the same node; or next to
   two neighbours. *)
Example C95_case : reachable doc /\ acyclic_dom doc /\
  (legal (OPrepend 2 7) doc /\ legal (OAppend 2 8) doc /\ apart_moves (OPrepend 2 7) (OAppend 2 8) /\
   (exists D1, both_calls (OPrepend 2 7) (OAppend 2 8) doc = Ok D1) /\
   (exists D2, both_calls (OAppend 2 8) (OPrepend 2 7) doc = Ok D2)) /\
  (legal (OInsertAfter 3 7) doc /\ legal (OInsertBefore 4 8) doc /\ apart_moves (OInsertAfter 3 7) (OInsertBefore 4 8) /\
   (exists D1, both_calls (OInsertAfter 3 7) (OInsertBefore 4 8) doc = Ok D1) /\
   (exists D2, both_calls (OInsertBefore 4 8) (OInsertAfter 3 7) doc = Ok D2)) /\
  exists_node doc 2 /\ exists_node doc 3.
Proof.
  split; [exact doc_reachable|]. split; [exact doc_acyclic|]. split; [|split].
  - do 2 (split; [apply legalb_ok; vm_compute; reflexivity|]).
    split; [exists 7, 8, (FirstIn 2), (LastIn 2); repeat split; discriminate|]. split; eexists; vm_compute; reflexivity.
  - do 2 (split; [apply legalb_ok; vm_compute; reflexivity|]).
    split; [exists 7, 8, (After 3), (Before 4); repeat split; discriminate|]. split; eexists; vm_compute; reflexivity.
  - split; apply Nat.leb_le; vm_compute; reflexivity.
Qed.
