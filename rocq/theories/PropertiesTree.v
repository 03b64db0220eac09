(* C01-C11: the tree API.  Each theorem is closed by a lemma of the proof files. *)
From Coq Require Import List Bool PeanoNat NArith.
From Verif Require Import Base Ids Links Tree Iter ForestSpec TreeSpec IterSpec Data Attrs Slab NodeApi Doc History
  Replay Samples TreeApi ApiProofs DocApi RootProofs RootSpec RootExact.
Import ListNotations.

(* C01: navigation always describes one ordered forest, and only one. *)
Theorem C01_navigation_is_a_forest D : reachable D ->
  exists F, shows (lk D) F /\ forall F', shows (lk D) F' ->
    (forall n, parent_of F' n = parent_of F n) /\ (forall n, children_of F' n = children_of F n) /\
    (forall n, siblings_of F' n = siblings_of F n).
Proof. exact (C01_lemma D). Qed.
Print Assumptions C01_navigation_is_a_forest.
Example C01_case : reachable doc /\ parent (lk doc) 4 = Some 2 /\ first_child (lk doc) 1 = Some 2 /\
  last_child (lk doc) 1 = Some 8 /\ next_sibling (lk doc) 3 = Some 4 /\ previous_sibling (lk doc) 8 = Some 7.
Proof. split; [exact doc_reachable|]. vm_compute. tauto. Qed.

(* C02: append. *)
Theorem C02_append D p n D' : step (OAppend p n) D = Ok D' ->
  dt D' = dt D /\ store D' = store D /\
  forall F, shows (lk D) F -> exists F', shows (lk D') F' /\ appended p n F F'.
Proof. exact (append_call D p n D'). Qed.
Print Assumptions C02_append.
Example C02_case : exists D', step (OAppend 1 3) doc = Ok D' /\ reachable doc /\
  last_child (lk D') 1 = Some 3 /\ previous_sibling (lk D') 3 = Some 8 /\ first_child (lk D') 2 = Some 4.
Proof. eexists. split; [vm_compute; reflexivity|]. split; [exact doc_reachable|]. vm_compute. tauto. Qed.

(* C03: prepend. *)
Theorem C03_prepend D p n D' : step (OPrepend p n) D = Ok D' ->
  dt D' = dt D /\ store D' = store D /\
  forall F, shows (lk D) F -> exists F', shows (lk D') F' /\ prepended p n F F'.
Proof. exact (prepend_call D p n D'). Qed.
Print Assumptions C03_prepend.
Example C03_case : exists D', step (OPrepend 1 4) doc = Ok D' /\ reachable doc /\
  first_child (lk D') 1 = Some 4 /\ next_sibling (lk D') 4 = Some 2 /\ last_child (lk D') 2 = Some 3.
Proof. eexists. split; [vm_compute; reflexivity|]. split; [exact doc_reachable|]. vm_compute. tauto. Qed.

(* C04: insert_after and insert_before. *)
Theorem C04_insert_after D a n D' : step (OInsertAfter a n) D = Ok D' ->
  dt D' = dt D /\ store D' = store D /\
  forall F, shows (lk D) F -> exists F', shows (lk D') F' /\ inserted_after a n F F'.
Proof. exact (insert_after_call D a n D'). Qed.
Print Assumptions C04_insert_after.
Theorem C04_insert_before D a n D' : step (OInsertBefore a n) D = Ok D' ->
  dt D' = dt D /\ store D' = store D /\
  forall F, shows (lk D) F -> exists F', shows (lk D') F' /\ inserted_before a n F F'.
Proof. exact (insert_before_call D a n D'). Qed.
Print Assumptions C04_insert_before.
Example C04_case : exists D' D'', step (OInsertAfter 2 7) doc = Ok D' /\ step (OInsertBefore 3 8) doc = Ok D'' /\
  reachable doc /\ next_sibling (lk D') 2 = Some 7 /\ next_sibling (lk D') 7 = Some 5 /\
  first_child (lk D'') 2 = Some 8 /\ next_sibling (lk D'') 8 = Some 3.
Proof.
  eexists. eexists. split; [vm_compute; reflexivity|]. split; [vm_compute; reflexivity|].
  split; [exact doc_reachable|]. vm_compute. tauto.
Qed.

(* C05: detach. *)
Theorem C05_detach D n D' : step (ODetach n) D = Ok D' ->
  dt D' = dt D /\ store D' = store D /\
  forall F, shows (lk D) F -> exists F', shows (lk D') F' /\ detached n F F'.
Proof. exact (detach_call D n D'). Qed.
Print Assumptions C05_detach.
(* It returns unless the node is its own parent and misses a neighbour, which needs a cycle. *)
Theorem C05_detach_returns D n : reachable D ->
  (touches (lk D) n n -> step (ODetach n) D = Panic PBorrow) /\
  (~ touches (lk D) n n -> exists D', step (ODetach n) D = Ok D').
Proof. exact (fun H => reach_detach D H n). Qed.
Print Assumptions C05_detach_returns.
Theorem C05_no_self D n : reachable D -> acyclic_dom D -> parent (lk D) n <> Some n /\ ~ touches (lk D) n n /\
  last_child (lk D) n <> Some n /\ first_child (lk D) n <> Some n.
Proof. exact (fun H A => reach_no_self D H A n). Qed.
Print Assumptions C05_no_self.
Example C05_case : exists D', step (ODetach 2) doc = Ok D' /\ reachable doc /\ acyclic_dom doc /\
  parent (lk D') 2 = None /\ next_sibling (lk D') 2 = None /\ first_child (lk D') 2 = Some 3 /\
  first_child (lk D') 1 = Some 5.
Proof.
  eexists. split; [vm_compute; reflexivity|]. split; [exact doc_reachable|]. split; [exact doc_acyclic|].
  vm_compute. tauto.
Qed.

(* C06 as stated is false: moving the last child to the end again panics. *)
Theorem C06_refuted : exists D p n, reachable D /\ acyclic_dom D /\ p <> n /\ parent (lk D) n = Some p /\
  step (OAppend p n) D = Panic PBorrow.
Proof.
  exists doc, 1, 8. split; [exact doc_reachable|]. split; [exact doc_acyclic|]. split; [easy|].
  split; vm_compute; reflexivity.
Qed.
Print Assumptions C06_refuted.
(* C06, exact, in every reachable document: the call panics iff both handles are the same node, or the
   target is one of the cells that have to be updated to take the moved node out of its place, or one
   of the nodes is its own parent (which needs a cycle, C05_no_self), or insert_after puts a node
   below itself behind the last child. *)
Theorem C06_append_partial D p n : reachable D ->
  let stuck := touches (lk D) n p \/ touches (lk D) n n \/ last_child (lk D) p = Some p in
  (p = n -> step (OAppend p n) D = Panic PAssert) /\
  (p <> n -> stuck -> step (OAppend p n) D = Panic PBorrow) /\
  (p <> n -> ~ stuck -> exists D', step (OAppend p n) D = Ok D').
Proof. exact (fun H => reach_append D H p n). Qed.
Print Assumptions C06_append_partial.
Theorem C06_prepend_partial D p n : reachable D ->
  let stuck := touches (lk D) n p \/ touches (lk D) n n \/ first_child (lk D) p = Some p in
  (p = n -> step (OPrepend p n) D = Panic PAssert) /\
  (p <> n -> stuck -> step (OPrepend p n) D = Panic PBorrow) /\
  (p <> n -> ~ stuck -> exists D', step (OPrepend p n) D = Ok D').
Proof. exact (fun H => reach_prepend D H p n). Qed.
Print Assumptions C06_prepend_partial.
Theorem C06_insert_after_partial D a n : reachable D ->
  let stuck := touches (lk D) n a \/ touches (lk D) n n \/
    next_sibling (lk D) a = None /\ (parent (lk D) a = Some n \/ parent (lk D) a = Some a) in
  (a = n -> step (OInsertAfter a n) D = Panic PAssert) /\
  (a <> n -> stuck -> step (OInsertAfter a n) D = Panic PBorrow) /\
  (a <> n -> ~ stuck -> exists D', step (OInsertAfter a n) D = Ok D').
Proof. exact (fun H => reach_insert_after D H a n). Qed.
Print Assumptions C06_insert_after_partial.
Theorem C06_insert_before_partial D a n : reachable D ->
  let stuck := touches (lk D) n a \/ touches (lk D) n n \/
    previous_sibling (lk D) a = None /\ parent (lk D) a = Some a in
  (a = n -> step (OInsertBefore a n) D = Panic PAssert) /\
  (a <> n -> stuck -> step (OInsertBefore a n) D = Panic PBorrow) /\
  (a <> n -> ~ stuck -> exists D', step (OInsertBefore a n) D = Ok D').
Proof. exact (fun H => reach_insert_before D H a n). Qed.
Print Assumptions C06_insert_before_partial.
Example C06_case : reachable doc /\ acyclic_dom doc /\ touches (lk doc) 8 1 /\ touches (lk doc) 4 3 /\
  ~ touches (lk doc) 5 1 /\ ~ touches (lk doc) 3 7.
Proof.
  split; [exact doc_reachable|]. split; [exact doc_acyclic|]. unfold touches. vm_compute.
  split; [tauto|]. split; [tauto|]. split; intros H; intuition discriminate.
Qed.
Example C06_own_parent : reachable ownp /\ touches (lk ownp) 1 1 /\ last_child (lk ownp) 1 = Some 1 /\
  next_sibling (lk ownp) 1 = None /\ parent (lk ownp) 1 = Some 1 /\
  step (ODetach 1) ownp = Panic PBorrow /\ step (OAppend 1 3) ownp = Panic PBorrow /\
  step (OInsertAfter 1 3) ownp = Panic PBorrow.
Proof.
  split; [exact ownp_reachable|]. split; [unfold touches; vm_compute; tauto|]. repeat split; vm_compute; reflexivity.
Qed.

(* C07 as stated is false. *)
Theorem C07_refuted : exists D, reachable D /\ ~ acyclic_dom D.
Proof.
  exists cyclic. split; [exact cyclic_reachable|]. intros A.
  apply (A 1 2); [vm_compute; reflexivity|]. apply (above_up _ 1 2 1); [vm_compute; reflexivity|constructor].
Qed.
Print Assumptions C07_refuted.
(* C07, exact: a call makes a cycle iff it inserts a node into its own subtree. *)
Theorem C07_exact_partial o D D' : reachable D -> acyclic_dom D -> legal o D -> step o D = Ok D' ->
  (acyclic_dom D' <-> no_cycle_made o D).
Proof. exact (cycle_exact o D D'). Qed.
Print Assumptions C07_exact_partial.
Theorem C07_history_partial D : reachable_tame D -> acyclic_dom D.
Proof. exact (tame_acyclic D). Qed.
Print Assumptions C07_history_partial.
Example C07_case : reachable_tame doc /\ reachable doc /\ acyclic_dom doc /\
  (exists D', step (OAppend 7 2) doc = Ok D') /\ legal (OAppend 7 2) doc.
Proof.
  split; [exact doc_tame|]. split; [exact doc_reachable|]. split; [exact doc_acyclic|].
  split; [eexists; vm_compute; reflexivity|]. apply (legalb_ok (OAppend 7 2) doc). reflexivity.
Qed.

(* C08: children() answers any sequence of next() and next_back() like a deque of the children. *)
Theorem C08_children D F p calls : reachable D -> shows (lk D) F ->
  children_run (lk D) (children (lk D) p) calls = deque_run (children_of F p) calls.
Proof. exact (C08_lemma D F p calls). Qed.
Print Assumptions C08_children.
Example C08_case : reachable doc /\ (exists F, shows (lk doc) F) /\
  children_run (lk doc) (children (lk doc) 1) [Front; Back; Back; Front; Front; Back]
  = [Some 2; Some 8; Some 7; Some 5; None; None].
Proof. split; [exact doc_reachable|]. split; [exact (reachable_shows doc doc_reachable)|]. vm_compute. reflexivity. Qed.

(* C09: traverse() and descendants(). *)
Theorem C09_traverse D F t : reachable D -> exists_node D (t_node t) -> shows (lk D) F ->
  tree_at F t ->
  (forall calls, traverse_run (lk D) (traverse (t_node t)) calls = deque_run (edges t) calls) /\
  descendants (2 * enough D) (lk D) (t_node t) = Ok (preorder t).
Proof. exact (reach_traverse D F t). Qed.
Print Assumptions C09_traverse.
Theorem C09_every_node_has_a_tree D F n : reachable D -> acyclic_dom D -> shows (lk D) F ->
  exists t, t_node t = n /\ tree_at F t.
Proof.
  exact (fun H A S => ForestFacts.tree_exists F n (sh_wf _ _ S) (shows_acyclic D F H A S)).
Qed.
Print Assumptions C09_every_node_has_a_tree.
Example C09_case : reachable doc /\ acyclic_dom doc /\ exists_node doc 2 /\ (exists F, shows (lk doc) F) /\
  traverse_run (lk doc) (traverse 2) [Front; Back; Back; Front; Front; Back; Front; Back]
  = [Some (Start 2); Some (End 2); Some (End 4); Some (Start 3); Some (End 3); Some (Start 4); None; None] /\
  descendants (2 * enough doc) (lk doc) 1 = Ok [1; 2; 3; 4; 5; 6; 7; 8].
Proof.
  split; [exact doc_reachable|]. split; [exact doc_acyclic|]. split; [apply Nat.leb_le; vm_compute; reflexivity|].
  split; [exact (reachable_shows doc doc_reachable)|]. split; vm_compute; reflexivity.
Qed.

(* C10: ancestors(), following_siblings(), preceding_siblings(). *)
Theorem C10_ancestors D F n : reachable D -> acyclic_dom D -> exists_node D n -> shows (lk D) F ->
  exists l, ancestor_chain F n l /\ ancestors (enough D) (lk D) n = Ok l.
Proof. exact (reach_ancestors D F n). Qed.
Print Assumptions C10_ancestors.
Theorem C10_siblings D F n l1 l2 : reachable D -> exists_node D n -> shows (lk D) F ->
  siblings_of F n = l1 ++ n :: l2 ->
  following_siblings (enough D) (lk D) n = Ok (n :: l2) /\
  preceding_siblings (enough D) (lk D) n = Ok (n :: rev l1).
Proof. exact (reach_siblings D F n l1 l2). Qed.
Print Assumptions C10_siblings.
Example C10_case : reachable doc /\ acyclic_dom doc /\ exists_node doc 7 /\
  ancestors (enough doc) (lk doc) 6 = Ok [6; 5; 1; 0] /\
  following_siblings (enough doc) (lk doc) 5 = Ok [5; 7; 8] /\
  preceding_siblings (enough doc) (lk doc) 7 = Ok [7; 5; 2].
Proof.
  split; [exact doc_reachable|]. split; [exact doc_acyclic|]. split; [apply Nat.leb_le; vm_compute; reflexivity|].
  vm_compute. tauto.
Qed.

(* C11 as stated is false: root() is stale after a subtree was attached. *)
Definition stale_ops : list op :=
  [ OCreateElement (QId E_G); OCreateElement (QId E_Rect); OAppend 1 2; OAppend 0 1 ].
Theorem C11_refuted : exists D n t, reachable_tame D /\ top_of (lk D) n t /\ root_of (lk D) n <> t.
Proof.
  exists (get (run tame_check stale_ops)), 2, 0. split; [|split].
  - apply (run_tame stale_ops). apply get_ok. vm_compute. reflexivity.
  - apply (top_up _ 2 1); [vm_compute; reflexivity|]. apply (top_up _ 1 0); [vm_compute; reflexivity|].
    apply top_self. vm_compute. reflexivity.
  - vm_compute. discriminate.
Qed.
Print Assumptions C11_refuted.
(* C11, for the tree of the document, in histories in which every node that is inserted into it brings only
   descendants whose root() is the root node already: childless nodes, and subtrees of the document itself.
   Missing: other subtrees with children, for which it fails, see C11_insert_partial. *)
Theorem C11_root_partial D n : reachable_ready D -> top_of (lk D) n (droot D) -> root_of (lk D) n = droot D.
Proof. exact (ready_root D n). Qed.
Print Assumptions C11_root_partial.
(* For any tree: an insertion keeps root() right exactly if this condition holds. *)
Theorem C11_insert_partial o D D' t n : reachable_tame D -> no_cycle_made o D -> step o D = Ok D' ->
  inserted o = Some n -> n <> t -> root_right t D -> (root_right t D' <-> root_ready t o D).
Proof. exact (insert_right o D D' t n). Qed.
Print Assumptions C11_insert_partial.
(* All other calls keep it right, and it is right for new nodes. *)
Theorem C11_others_partial o D D' t : reachable_tame D -> exists_node D t -> legal o D -> inserted o = None ->
  step o D = Ok D' -> root_right t D -> root_right t D'.
Proof. exact (other_right o D D' t). Qed.
Print Assumptions C11_others_partial.
Theorem C11_new_partial D n : reachable D -> parent (lk D) n = None -> first_child (lk D) n = None ->
  root_of (lk D) n = n -> root_right n D.
Proof. exact (new_right n D). Qed.
Print Assumptions C11_new_partial.
(* The group 2 with two children is moved behind 7. *)
Definition moved_group : dom := get (step (OInsertAfter 7 2) doc).
Lemma doc_right : root_right (droot doc) doc.
Proof. exact (ready_right doc (leafy_ready doc doc_leafy)). Qed.
Lemma doc_top n : n = 2 \/ n = 4 -> top_of (lk doc) n (droot doc).
Proof.
  assert (H : top_of (lk doc) 2 (droot doc)).
  { apply (top_up _ 2 1); [vm_compute; reflexivity|]. apply (top_up _ 1 0); [vm_compute; reflexivity|].
    apply top_self. vm_compute. reflexivity. }
  intros [->| ->]; [exact H|]. apply (top_up _ 4 2); [vm_compute; reflexivity|exact H].
Qed.
Lemma moved_ready : root_ready (droot doc) (OInsertAfter 7 2) doc.
Proof. apply (inside_ready (droot doc) (OInsertAfter 7 2) doc 2 doc_right eq_refl). apply doc_top. now left. Qed.
Example C11_case : reachable_ready moved_group /\ first_child (lk moved_group) 2 = Some 3 /\
  previous_sibling (lk moved_group) 2 = Some 7 /\ root_of (lk moved_group) 3 = 0 /\
  root_right (droot doc) doc /\ inserted (OInsertAfter 7 2) = Some 2 /\ root_ready (droot doc) (OInsertAfter 7 2) doc.
Proof.
  split; [|split; [vm_compute; reflexivity|split; [vm_compute; reflexivity|split; [vm_compute; reflexivity|]]]].
  - apply (ready_step doc (OInsertAfter 7 2)); [exact (leafy_ready doc doc_leafy)| | | | |].
    + split; [|exact I]. intros n [<-|[<-|[]]]; apply Nat.leb_le; vm_compute; reflexivity.
    + apply no_cycleb_ok. vm_compute. reflexivity.
    + vm_compute. discriminate.
    + exact moved_ready.
    + apply get_ok. vm_compute. reflexivity.
  - split; [exact doc_right|]. split; [reflexivity|exact moved_ready].
Qed.
