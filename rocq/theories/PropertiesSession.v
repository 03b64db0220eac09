(* C70-C71: loops over iterators whose body changes the document. *)
From Coq Require Import List Bool PeanoNat NArith String.
From Verif Require Import Base Ids Links Tree Iter ForestSpec IterSpec TreeSpec Data Attrs Slab NodeApi Doc DocSpec History
  Replay HistoryProofs TreeApi ApiProofs DocApi SessionSpec SessionProofs Samples.
Import ListNotations.
Open Scope string_scope.

(* C70: children() visits every child once, in order, whatever the body of the loop does, as long as the
   children not yet visited stay the last of their siblings (the first ones when going backwards). *)
Theorem C70_children D F p Ds : reachable D -> shows (lk D) F ->
  (forall i D', nth_error Ds i = Some D' -> still_last D' (skipn i (children_of F p))) ->
  children_session Ds (children (lk D) p) = answers (children_of F p) (List.length Ds).
Proof. exact (children_session_spec D F p Ds). Qed.
Print Assumptions C70_children.
Theorem C70_children_back D F p Ds : reachable D -> shows (lk D) F ->
  (forall i D', nth_error Ds i = Some D' -> still_first D' (rev (skipn i (rev (children_of F p))))) ->
  children_back_session Ds (children (lk D) p) = answers (rev (children_of F p)) (List.length Ds).
Proof. exact (children_back_spec D F p Ds). Qed.
Print Assumptions C70_children_back.
(* for c in p.children() { q.append(c) } *)
Theorem C70_move_all D F p q : reachable D -> shows (lk D) F -> (forall x, parent (lk D) x <> Some x) ->
  exists_node D q -> p <> q -> parent (lk D) q <> Some p ->
  exists D', for_children lk (enough D) (fun c => step (OAppend q c)) (children (lk D) p) D = Ok D' /\
    reachable D' /\ dt D' = dt D /\
    exists F', shows (lk D') F' /\ children_of F' p = [] /\ children_of F' q = (children_of F q ++ children_of F p)%list /\
      (forall x, x <> p -> x <> q -> children_of F' x = children_of F x) /\
      (forall x, parent_of F x = None -> parent_of F' x = None /\ siblings_of F' x = siblings_of F x).
Proof. exact (move_all_children D F p q). Qed.
Print Assumptions C70_move_all.
(* for c in p.children() { c.detach() } *)
Theorem C70_detach_all D F p : reachable D -> shows (lk D) F -> (forall x, parent (lk D) x <> Some x) ->
  exists D', for_children lk (enough D) (fun c => step (ODetach c)) (children (lk D) p) D = Ok D' /\
    reachable D' /\ dt D' = dt D /\
    exists F', shows (lk D') F' /\ children_of F' p = [] /\
      (forall c, In c (children_of F p) -> parent_of F' c = None /\ siblings_of F' c = [c]) /\
      (forall x, x <> p -> children_of F' x = children_of F x) /\
      (forall x, parent_of F x = None -> parent_of F' x = None /\ siblings_of F' x = siblings_of F x).
Proof. exact (detach_all_children D F p). Qed.
Print Assumptions C70_detach_all.

Definition after (ops : list op) (D : dom) : dom :=
  fold_left (fun D o => match step o D with Ok D' => D' | _ => D end) ops D.
(* The children of 1 are 2, 5, 7, 8.  2 is detached after it was visited, 5 is moved into 8, then a node is
   inserted before 7. *)
Example C70_case : reachable doc /\ (forall x, parent (lk doc) x <> Some x) /\ exists_node doc 3 /\ parent (lk doc) 3 <> Some 1 /\
  (let D1 := after [ODetach 2] doc in let D2 := after [OAppend 8 5] D1 in
   let D3 := after [OCreateElement (QId E_G); OInsertBefore 8 9] D2 in
   children_session [doc; D1; D2; D3; D3] (children (lk doc) 1) = [Some 2; Some 5; Some 7; Some 8; None]) /\
  (let D1 := after [ODetach 8] doc in let D2 := after [OAppend 2 7] D1 in
   children_back_session [doc; D1; D2; D2; D2] (children (lk doc) 1) = [Some 8; Some 7; Some 5; Some 2; None]) /\
  is_ok (for_children lk (enough doc) (fun c => step (OAppend 3 c)) (children (lk doc) 1) doc) = true /\
  is_ok (for_children lk (enough doc) (fun c => step (ODetach c)) (children (lk doc) 1) doc) = true.
Proof.
  split; [exact doc_reachable|]. split; [intros x; apply (reach_no_self doc doc_reachable doc_acyclic x)|]. 
  split; [apply Nat.leb_le; vm_compute; reflexivity|]. split; [vm_compute; discriminate|].
  repeat (split; [vm_compute; reflexivity|]). vm_compute; reflexivity.
Qed.
(* The hypothesis of C70_children in this run. *)
Example C70_still : let D1 := after [ODetach 2] doc in still_last D1 [5; 7; 8].
Proof.
  cbv zeta. assert (R : reachable (after [ODetach 2] doc)).
  { apply (reach_step doc (ODetach 2)); [exact doc_reachable| |vm_compute; reflexivity].
    split; [|exact Logic.I]. intros n [<-|[]]. apply Nat.leb_le. vm_compute. reflexivity. }
  destruct (reachable_shows _ R) as (F & S). exists F. split; [exact S|].
  assert (Hp : forall c, In c [5; 7; 8] -> parent_of F c = Some 1).
  { intros c Hc. rewrite <- (sh_parent _ _ S). repeat (destruct Hc as [<-|Hc]; [vm_compute; reflexivity|]). destruct Hc. }
  assert (Hc : children_of F 1 = [5; 7; 8]).
  { apply (deque_read [5; 7; 8]). rewrite <- (C08_lemma _ F 1 _ R S). vm_compute. reflexivity. }
  intros c Hin. exists []. rewrite (wf_parent F (sh_wf _ _ S) c 1 (Hp c Hin)). exact Hc.
Qed.

(* C71 as stated is false: detaching the node just visited by descendants() ends the walk, although there
   are nodes left. *)
Theorem C71_refuted : exists D D' n, reachable_tame D /\ step (ODetach 3) D = Ok D' /\
  descendants_session (2 * enough D) [D; D; D; D'; D'] (traverse 1) = Ok [Some 1; Some 2; Some 3; None; None] /\
  n <> 1 /\ n <> 2 /\ above (lk D') 1 n.
Proof.
  exists doc, (after [ODetach 3] doc), 4. split; [exact doc_tame|]. split; [vm_compute; reflexivity|].
  split; [vm_compute; reflexivity|]. split; [discriminate|]. split; [discriminate|].
  apply (above_up _ 1 4 2); [vm_compute; reflexivity|]. apply (above_up _ 1 2 1); [vm_compute; reflexivity|]. constructor.
Qed.
Print Assumptions C71_refuted.
(* traverse() and descendants() visit everything in order, whatever the body of the loop does, as long as
   what is ahead of the walk stays the same. *)
Theorem C71_traverse_partial D F t Ds : reachable D -> shows (lk D) F -> tree_at F t ->
  (forall i D', nth_error Ds i = Some D' -> skipn i (edges t) = [] \/ still_ahead D' (t_node t) (skipn i (edges t))) ->
  traverse_session Ds (traverse (t_node t)) = answers (edges t) (List.length Ds).
Proof. exact (traverse_session_spec D F t Ds). Qed.
Print Assumptions C71_traverse_partial.
Theorem C71_descendants_partial D F t Ds : reachable D -> exists_node D (t_node t) -> shows (lk D) F -> tree_at F t ->
  (forall i D', nth_error Ds i = Some D' ->
     ahead i (edges t) = [] \/ still_ahead D' (t_node t) (ahead i (edges t))) ->
  descendants_session (2 * enough D) Ds (traverse (t_node t)) = Ok (answers (preorder t) (List.length Ds)).
Proof. exact (descendants_session_spec D F t Ds). Qed.
Print Assumptions C71_descendants_partial.
(* When the walk through 1 visits 4, the sibling 3 before it is detached. *)
Definition cut3 : dom := after [ODetach 3] doc.
Example C71_case : reachable doc /\ exists_node doc 1 /\ step (ODetach 3) doc = Ok cut3 /\
  still_ahead doc 1 [End 4; End 2; Start 5; Start 6; End 6; End 5; Start 7; End 7; Start 8; End 8; End 1] /\
  still_ahead cut3 1 [End 4; End 2; Start 5; Start 6; End 6; End 5; Start 7; End 7; Start 8; End 8; End 1] /\
  descendants_session (2 * enough doc) [doc; doc; doc; doc; cut3; cut3] (traverse 1) =
    Ok [Some 1; Some 2; Some 3; Some 4; Some 5; Some 6].
Proof.
  assert (Hs : step (ODetach 3) doc = Ok cut3) by (vm_compute; reflexivity).
  assert (T : reachable_tame cut3).
  { apply (tame_step doc (ODetach 3)); [exact doc_tame| |exact Logic.I|exact Hs].
    split; [|exact Logic.I]. intros n [<-|[]]. apply Nat.leb_le. vm_compute. reflexivity. }
  split; [exact doc_reachable|]. split; [apply Nat.leb_le; vm_compute; reflexivity|]. split; [exact Hs|].
  split; [|split; [|vm_compute; reflexivity]].
  - apply (ahead_read doc 1 [Start 1; Start 2; Start 3; End 3; Start 4; End 4; End 2; Start 5; Start 6; End 6; End 5; Start 7; End 7; Start 8; End 8; End 1]
      [Start 1; Start 2; Start 3; End 3; Start 4]); [exact doc_reachable|exact doc_acyclic| | |reflexivity].
    + apply Nat.leb_le. vm_compute. reflexivity.
    + vm_compute. reflexivity.
  - apply (ahead_read cut3 1 [Start 1; Start 2; Start 4; End 4; End 2; Start 5; Start 6; End 6; End 5; Start 7; End 7; Start 8; End 8; End 1]
      [Start 1; Start 2; Start 4]); [now apply tame_reachable|now apply tame_acyclic| | |reflexivity].
    + apply Nat.leb_le. vm_compute. reflexivity.
    + vm_compute. reflexivity.
Qed.
