(* C96: the last move of a node counts, and a node that has been detached can be put anywhere. *)
From Coq Require Import List Bool PeanoNat NArith String.
From Verif Require Import Base Ids Links Tree ForestSpec TreeSpec TreeApi Data Attrs Slab NodeApi AttrSpec Doc History DocSpec
  HistoryProofs ApiProofs Replay Samples UndoSpec ApartSpec CommuteSpec CommuteProofs LastMove.
Import ListNotations.
Open Scope list_scope.

(* Two moves of one node have the effect of the second one. *)
Theorem C96_last D o1 o2 n a b D1 D2 : reachable D -> goes o1 = Some (n, a) -> goes o2 = Some (n, b) ->
  both_calls o1 o2 D = Ok D1 -> step o2 D = Ok D2 -> as_before D1 D2.
Proof. exact (last_counts D o1 o2 n a b D1 D2). Qed.
Print Assumptions C96_last.

(* Detaching a node before a move that does not put it into its own subtree avoids the panics of C06: both calls return,
   no cycle is made, and what they do together is what C02 to C05 say of the move alone. *)
Theorem C96_detach_first D o n a : reachable D -> acyclic_dom D -> legal o D -> goes o = Some (n, a) -> no_cycle_made o D ->
  exists D', both_calls (ODetach n) o D = Ok D' /\ acyclic_dom D' /\ dt D' = dt D /\ store D' = store D /\
  forall F, shows (lk D) F -> exists F', shows (lk D') F' /\
    match a with
    | Nowhere => detached n F F'
    | FirstIn p => prepended p n F F'
    | LastIn p => appended p n F F'
    | After x => inserted_after x n F F'
    | Before x => inserted_before x n F F'
    end.
Proof. exact (detached_first D o n a). Qed.
Print Assumptions C96_detach_first.

(* A node that is moved twice; and the last child of a node, which cannot be appended to this node again unless it is
   detached. *)
Example C96_case : reachable doc /\ acyclic_dom doc /\ goes (OAppend 2 7) = Some (7, LastIn 2) /\
  goes (OInsertBefore 3 7) = Some (7, Before 3) /\
  (exists D1, both_calls (OAppend 2 7) (OInsertBefore 3 7) doc = Ok D1) /\ (exists D2, step (OInsertBefore 3 7) doc = Ok D2) /\
  step (OAppend 1 8) doc = Panic PBorrow /\ legal (OAppend 1 8) doc /\ goes (OAppend 1 8) = Some (8, LastIn 1) /\
  no_cycle_made (OAppend 1 8) doc.
Proof.
  split; [exact doc_reachable|]. split; [exact doc_acyclic|]. do 2 (split; [reflexivity|]).
  do 2 (split; [eexists; vm_compute; reflexivity|]). split; [vm_compute; reflexivity|].
  split; [apply legalb_ok; vm_compute; reflexivity|]. split; [reflexivity|].
  cbn [no_cycle_made]. intros K. inversion K; subst. vm_compute in H. injection H as <-.
  inversion H0; subst. vm_compute in H. discriminate.
Qed.
