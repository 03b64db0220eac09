(* C19-C26: the document operations. *)
From Coq Require Import String List Bool PeanoNat NArith.
From Verif Require Import Base Ids Links Tree ForestSpec TreeSpec IterSpec Data Attrs Slab NodeApi AttrSpec Doc History
  DocSpec DropSpec Replay Samples LoopSpec TreeApi ApiProofs DocApi DropExact LoopExact.
Import ListNotations.
Open Scope list_scope.

(* C19 as stated is false: a link with a name that is not an SVG name stays. *)
Theorem C19_refuted : exists D n D', (reachable_tame D /\ exists_node D n) /\ remove_node n D = Ok D' /\
  exists x a, x <> n /\ In a (attributes D' x) /\ link_target (a_value a) = Some n.
Proof.
  exists named_link, 8.
  assert (H : exists D', remove_node 8 named_link = Ok D' /\
                In (mkAttr (QName (lit "foo")) (VFuncLink 8)) (attributes D' 5)).
  { apply ok_case. vm_compute. tauto. }
  destruct H as (D' & E & H). exists D'.
  split; [split; [exact named_link_tame|apply Nat.leb_le; vm_compute; reflexivity]|]. split; [exact E|].
  exists 5, (mkAttr (QName (lit "foo")) (VFuncLink 8)). split; [discriminate|]. split; [exact H|reflexivity].
Qed.
Print Assumptions C19_refuted.
(* C19 for every node with a finite tree below it, except that links with other than SVG names are kept (see [removed]). *)
Theorem C19_remove_partial D F t : reachable D -> shows (lk D) F -> tree_at F t ->
  exists_node D (t_node t) ->
  exists D' F', remove_node (t_node t) D = Ok D' /\ removed (preorder t) D D' /\ shows (lk D') F' /\
    pruned (preorder t) F F' /\ (acyclic_dom D -> acyclic_dom D').
Proof. exact (remove_cases_api D F t). Qed.
Print Assumptions C19_remove_partial.
(* C19 in full, for histories that do not use removed nodes and make links with SVG names only. *)
Theorem C19_remove_links_partial D F t D' : reachable_orderly D -> shows (lk D) F -> tree_at F t ->
  exists_node D (t_node t) -> remove_node (t_node t) D = Ok D' ->
  unlinked_all (preorder t) D D'.
Proof. exact (remove_orderly D F t D'). Qed.
Print Assumptions C19_remove_links_partial.
Example C19_case : reachable_orderly doc /\ reachable doc /\ acyclic_dom doc /\ exists_node doc 7 /\
  (exists F t, shows (lk doc) F /\ tree_at F t /\ t_node t = 7) /\
  exists D', remove_node 7 doc = Ok D' /\ attributes D' 4 = [] /\ next_sibling (lk D') 5 = Some 8 /\
    is_detached D' 7 = true /\ is_detached D' 8 = false.
Proof.
  split; [exact doc_orderly|]. split; [exact doc_reachable|]. split; [exact doc_acyclic|].
  split; [apply Nat.leb_le; vm_compute; reflexivity|]. split.
  - destruct (reachable_shows doc doc_reachable) as (F & S). exists F.
    destruct (ForestFacts.tree_exists F 7 (sh_wf _ _ S) (shows_acyclic doc F doc_reachable doc_acyclic S)) as (t & E & Ht).
    now exists t.
  - apply ok_case. vm_compute. tauto.
Qed.

(* C20 as stated is false: on a document with a cycle no number of steps is enough. *)
Theorem C20_refuted : exists D n, reachable D /\ exists_node D n /\ forall fuel, remove_rec fuel n D = Diverge.
Proof.
  exists cyclic, 1. split; [exact cyclic_reachable|]. split; [apply Nat.leb_le; vm_compute; reflexivity|].
  exact (fun fuel => proj1 (remove_rec_cyclic fuel)).
Qed.
Print Assumptions C20_refuted.
(* remove_node returns exactly on the nodes with a finite tree below them, and otherwise runs forever: no
   number of steps is enough. *)
Theorem C20_exact_partial D F n : reachable D -> shows (lk D) F -> exists_node D n ->
  (finite_at F n /\ exists D', remove_node n D = Ok D') \/
  (~ finite_at F n /\ forall fuel, remove_rec fuel n D = Diverge).
Proof. exact (remove_exact D F n). Qed.
Print Assumptions C20_exact_partial.
(* Calling it again is harmless. *)
Theorem C20_remove_returns_partial D F n : reachable D -> shows (lk D) F -> finite_at F n -> exists_node D n ->
  exists D' D'', remove_node n D = Ok D' /\ remove_node n D' = Ok D'' /\
    (forall F', shows (lk D') F' -> shows (lk D'') F') /\
    (forall x, storage_key D'' x = storage_key D' x) /\
    (forall x, attributes D'' x = attributes D' x) /\
    (forall x y, times x (linked_nodes D'' y) = times x (linked_nodes D' y)) /\
    (forall x, text_of D'' x = text_of D' x /\ tag_name D'' x = tag_name D' x /\ id_of D'' x = id_of D' x).
Proof.
  intros H S (t & <- & Ht) Hn.
  destruct (reach_remove D F t H S Ht Hn) as (D' & E & _).
  destruct (removed_again D F t D' H S Ht Hn E) as (D'' & R). exists D', D''. exact (conj E R).
Qed.
Print Assumptions C20_remove_returns_partial.
Example C20_case : reachable doc /\ (exists F, shows (lk doc) F /\ finite_at F 1) /\ exists_node doc 1 /\
  exists D', remove_node 1 doc = Ok D' /\ first_child (lk D') 0 = None /\ linked_nodes D' 7 = [].
Proof.
  split; [exact doc_reachable|]. split; [|split; [apply Nat.leb_le; vm_compute; reflexivity|]].
  - destruct (reachable_shows doc doc_reachable) as (F & S). exists F. split; [exact S|].
    exact (ForestFacts.tree_exists F 1 (sh_wf _ _ S) (shows_acyclic doc F doc_reachable doc_acyclic S)).
  - apply ok_case. vm_compute. tauto.
Qed.

(* C21: the storage is a bijection between slots and the nodes that were not removed. *)
Theorem C21_slots D : reachable D ->
  (forall n k, storage_key D n = Some k <-> slab_get (store D) k = Some n) /\
  (forall n m k, storage_key D n = Some k -> storage_key D m = Some k -> n = m) /\
  (forall n k, storage_key D n = Some k -> exists s, slab_remove (store D) k = Ok (n, s)).
Proof. exact (slots D). Qed.
Print Assumptions C21_slots.
Theorem C21_detached R D n : history R D -> exists_node D n -> (is_detached D n = true <-> In n R).
Proof. exact (fun H => history_detached R D H n). Qed.
Print Assumptions C21_detached.
Example C21_case : reachable zombie /\ storage_key zombie 3 = None /\ storage_key zombie 4 <> None /\
  exists R D, history R D /\ exists_node D 0 /\ In 1 R.
Proof.
  split; [apply HistoryProofs.tame_reachable, zombie_tame|]. split; [vm_compute; reflexivity|].
  split; [vm_compute; discriminate|].
  assert (E : exists D1, (D0 <- new_document ;; step (OCreateElement (QId E_Svg)) D0) = Ok D1 /\ fresh D1 = 2).
  { apply ok_case. vm_compute. reflexivity. }
  destruct E as (D1 & E1 & Hf). destruct new_document as [D0| |] eqn:E0; try discriminate. cbn [bind] in E1.
  assert (H1 : history [] D1).
  { apply (hist_step [] D0 (OCreateElement (QId E_Svg)) [] D1); [now constructor|easy|exact I|now constructor|exact E1]. }
  assert (N1 : exists_node D1 1) by (unfold exists_node; rewrite Hf; now constructor).
  pose proof (history_tame [] D1 H1) as T1. pose proof (HistoryProofs.tame_reachable D1 T1) as R1.
  pose proof (tame_acyclic D1 T1) as A1. destruct (reachable_shows D1 R1) as (F & S).
  destruct (ForestFacts.tree_exists F 1 (sh_wf _ _ S) (shows_acyclic D1 F R1 A1 S)) as (t & E & Ht).
  rewrite <- E in N1. destruct (reach_remove D1 F t R1 S Ht N1) as (D2 & E2 & _ & Rm & _).
  exists (preorder t), D2. split.
  - apply (hist_step [] D1 (ORemoveNode (t_node t)) (preorder t) D2 H1); [|exact I|exact (takes_remove D1 F t S Ht)|exact E2].
    split; [|exact I]. intros x [<-|[]]. exact N1.
  - split; [|rewrite <- E; destruct t as [m ts]; now left]. unfold exists_node. rewrite (rv_fresh _ _ _ Rm).
    unfold exists_node in N1. rewrite E in N1. exact (Nat.lt_trans 0 1 _ Nat.lt_0_1 N1).
Qed.

(* C22: drain. *)
Theorem C22_drain D F t f : reachable D -> shows (lk D) F -> tree_at F t ->
  exists_node D (t_node t) -> stable f D ->
  let tops := flat_map (maximal (f D)) (t_kids t) in
  let S := flat_map preorder tops in
  exists D' F', drain (t_node t) f D = Ok (D', length tops) /\ removed S D D' /\ shows (lk D') F' /\
    pruned S F F' /\ tree_at F' (drained (f D) t).
Proof. exact (drain_api D F t f). Qed.
Print Assumptions C22_drain.
Theorem C22_which D F t f : reachable D -> shows (lk D) F -> tree_at F t ->
  forall x, In x (map t_node (flat_map (maximal (f D)) (t_kids t))) <->
  (x <> t_node t /\ anc_or_self F (t_node t) x /\ f D x = true /\
   forall y, y <> t_node t -> y <> x -> anc_or_self F (t_node t) y -> anc_or_self F y x -> f D y = false).
Proof. exact (drain_which D F t f). Qed.
Print Assumptions C22_which.
Definition is_gradient (D : dom) (n : nid) : bool := has_tag_name D n (QId E_LinearGradient).
Example C22_case : reachable doc /\ acyclic_dom doc /\ exists_node doc 1 /\ stable is_gradient doc /\
  exists D', drain 1 is_gradient doc = Ok (D', 2) /\ last_child (lk D') 1 = Some 5 /\ is_detached D' 8 = true.
Proof.
  split; [exact doc_reachable|]. split; [exact doc_acyclic|]. split; [apply Nat.leb_le; vm_compute; reflexivity|].
  split; [|apply ok_case_fst; vm_compute; tauto].
  intros S D' R x _. unfold is_gradient, has_tag_name. now rewrite (rv_tag _ _ _ R).
Qed.

(* C22 for closures that may answer differently after each removal: what drain did with the trees below the node. *)
Theorem C22_any_closure D F t f : reachable D -> shows (lk D) F -> tree_at F t -> exists_node D (t_node t) ->
  exists D' F' ms, drain (t_node t) f D = Ok (D', length ms) /\ drained_by f D D' (t_kids t) ms /\
    shows (lk D') F' /\ pruned (flat_map preorder ms) F F'.
Proof. exact (drain_any_api D F t f). Qed.
Print Assumptions C22_any_closure.
(* drain returns exactly when the tree below the node is finite, whatever the closure says; otherwise no number of
   steps is enough. *)
Theorem C22_returns D F n f : reachable D -> shows (lk D) F -> exists_node D n ->
  (finite_at F n /\ exists r, drain n f D = Ok r) \/
  (~ finite_at F n /\ forall fuel, drain_loop fuel f (first_child (lk D) n) (D, 0) = Diverge).
Proof. exact (drain_exact_api D F n f). Qed.
Print Assumptions C22_returns.
(* A closure whose answer changes: the elements without children are removed, the group that has lost its children
   by then was asked before. *)
Definition childless (D : dom) (n : nid) : bool := negb (has_children (lk D) n) && is_element D n.
Example C22_outcomes : (reachable doc /\ childless doc 2 = false /\
    exists D', drain 0 childless doc = Ok (D', 4) /\ is_detached D' 3 = true /\ is_detached D' 2 = false /\
      childless D' 2 = true) /\
  (reachable cyclic /\ exists_node cyclic 1 /\ exists F, shows (lk cyclic) F /\ ~ finite_at F 1).
Proof.
  split; [split; [exact doc_reachable|split; [vm_compute; reflexivity|apply ok_case_fst; vm_compute; tauto]]|].
  assert (Hn : exists_node cyclic 1) by (apply Nat.leb_le; vm_compute; reflexivity).
  split; [exact cyclic_reachable|]. split; [exact Hn|].
  destruct (reachable_shows cyclic cyclic_reachable) as (F & S). exists F. split; [exact S|].
  destruct (remove_exact cyclic F 1 cyclic_reachable S Hn) as [(_ & D' & E)|(Hf & _)]; [|exact Hf].
  unfold remove_node in E. rewrite (proj1 (remove_rec_cyclic _)) in E. discriminate.
Qed.

(* C23: copy_node. *)
Theorem C23_copy D n m D' : reachable D -> exists_node D n -> copy_node n D = Ok (m, D') ->
  m = fresh D /\ copyable D n /\ copy_of D n D' m /\ copy_effect D n m D' /\
    parent (lk D') m = None /\ first_child (lk D') m = None /\
    next_sibling (lk D') m = None /\ previous_sibling (lk D') m = None.
Proof. exact (copy_call D n m D'). Qed.
Print Assumptions C23_copy.
Example C23_case : reachable doc /\ exists_node doc 3 /\ copyable doc 3 /\
  exists D', copy_node 3 doc = Ok (9, D') /\ attributes D' 9 = attributes doc 3 /\ linked_nodes D' 7 = [3; 4; 8; 9].
Proof.
  split; [exact doc_reachable|]. split; [apply Nat.leb_le; vm_compute; reflexivity|].
  split; [split; [vm_compute; discriminate|apply doc_named, Nat.ltb_lt; reflexivity]|].
  apply ok_case_snd. vm_compute. tauto.
Qed.

(* C24 as stated is false: the id of a link target may have been cleared. *)
Theorem C24_refuted : exists D n, reachable_tame D /\ exists_node D n /\ is_element D n = true /\
  copy_node n D = Panic PUnwrap.
Proof.
  exists lost_id, 3. split; [exact lost_id_tame|]. split; [apply Nat.leb_le; vm_compute; reflexivity|].
  split; vm_compute; reflexivity.
Qed.
Print Assumptions C24_refuted.
(* C24, exact for copy_node: it returns iff the node is copyable. *)
Theorem C24_copy_partial D n : reachable D -> exists_node D n ->
  (copyable D n -> exists r, copy_node n D = Ok r) /\ (~ copyable D n -> exists k, copy_node n D = Panic k).
Proof.
  intros H Hn. split; [|exact (copy_fails_api D n H Hn)].
  intros C. destruct (copy_api D n H Hn C) as (D' & E & _). exact (ex_intro _ _ E).
Qed.
Print Assumptions C24_copy_partial.
Example C24_case : reachable lost_id /\ exists_node lost_id 3 /\ ~ copyable lost_id 3 /\ copyable lost_id 5.
Proof.
  split; [apply HistoryProofs.tame_reachable, lost_id_tame|]. split; [apply Nat.leb_le; vm_compute; reflexivity|]. split.
  - intros (_ & H). apply (H (mkAttr (QId A_Fill) (VPaint 7 (Some FNone))) 7); [vm_compute; tauto|reflexivity|].
    vm_compute. reflexivity.
  - split; [vm_compute; discriminate|]. intros a t Ha. vm_compute in Ha. destruct Ha.
Qed.

(* C25: copy_node_deep. *)
Theorem C25_deep D F t : reachable D -> shows (lk D) F -> tree_at F t -> exists_node D (t_node t) ->
  (forall x, In x (preorder t) -> copyable D x) ->
  exists D' F' u, copy_node_deep (t_node t) D = Ok (t_node u, D') /\ shows (lk D') F' /\
    copied_tree D D' t u /\ tree_at F' u /\ parent_of F' (t_node u) = None /\ siblings_of F' (t_node u) = [t_node u] /\
    (forall x, In x (preorder u) <-> ~ exists_node D x /\ exists_node D' x) /\ grown (preorder t) D D' /\
    (forall x, exists_node D x -> parent_of F' x = parent_of F x /\ siblings_of F' x = siblings_of F x /\
                              children_of F' x = children_of F x).
Proof. exact (deep_api D F t). Qed.
Print Assumptions C25_deep.
Example C25_case : reachable doc /\ acyclic_dom doc /\ exists_node doc 2 /\
  (forall x, In x [2; 3; 4] -> copyable doc x) /\
  exists D', copy_node_deep 2 doc = Ok (9, D') /\ first_child (lk D') 9 = Some 10 /\ last_child (lk D') 9 = Some 11 /\
    tag_name D' 10 = QId E_Rect /\ attributes D' 11 = attributes doc 4.
Proof.
  split; [exact doc_reachable|]. split; [exact doc_acyclic|]. split; [apply Nat.leb_le; vm_compute; reflexivity|].
  split.
  - intros x [<-|[<-|[<-|[]]]]; (split; [vm_compute; discriminate|apply doc_named, Nat.ltb_lt; reflexivity]).
  - apply ok_case_snd. vm_compute. tauto.
Qed.

(* copy_node_deep returns exactly when the tree is finite and each of its nodes can be copied.  In a finite tree it
   panics otherwise; in an infinite one no number of steps is enough. *)
Theorem C25_returns D F n : reachable D -> shows (lk D) F -> exists_node D n ->
  (exists r, copy_node_deep n D = Ok r) <->
  exists t, t_node t = n /\ tree_at F t /\ forall x, In x (preorder t) -> copyable D x.
Proof. exact (deep_exact_api D F n). Qed.
Print Assumptions C25_returns.
Theorem C25_panics D F t : reachable D -> shows (lk D) F -> tree_at F t -> exists_node D (t_node t) ->
  (exists x, In x (preorder t) /\ ~ copyable D x) -> exists q, copy_node_deep (t_node t) D = Panic q.
Proof. exact (deep_panics_api D F t). Qed.
Print Assumptions C25_panics.
Theorem C25_infinite D F n m D1 : reachable D -> shows (lk D) F -> exists_node D n -> ~ finite_at F n ->
  copy_node n D = Ok (m, D1) -> forall fuel D', make_deep_copy fuel m n D1 <> Ok D'.
Proof. exact (deep_infinite_api D F n m D1). Qed.
Print Assumptions C25_infinite.
Example C25_outcomes : (reachable lost_id /\ exists_node lost_id 2 /\ copy_node_deep 2 lost_id = Panic PUnwrap) /\
  (reachable cyclic /\ exists_node cyclic 1 /\ exists r, copy_node 1 cyclic = Ok r).
Proof.
  split.
  - split; [apply HistoryProofs.tame_reachable, lost_id_tame|]. split; [apply Nat.leb_le; vm_compute; reflexivity|].
    vm_compute. reflexivity.
  - split; [exact cyclic_reachable|]. split; [apply Nat.leb_le; vm_compute; reflexivity|].
    destruct (copy_node 1 cyclic) as [r| |] eqn:E; [now exists r|exfalso|exfalso]; vm_compute in E; discriminate.
Qed.

(* C26 as stated is false: nodes that were removed and linked afterwards are not reached by drop. *)
Theorem C26_refuted : exists D D' n, reachable_tame D /\ drop_document D = Ok D' /\ keeps_alive D' n n.
Proof.
  assert (H : exists D', drop_document zombie = Ok D' /\
                (In (mkAttr (QId A_Fill) (VPaint 7 None)) (attributes D' 3) /\ In 3 (linked_nodes D' 7))).
  { apply ok_case. vm_compute. tauto. }
  destruct H as (D' & E & H1 & H2). exists zombie, D', 3. split; [exact zombie_tame|]. split; [exact E|].
  apply (ka_more _ 3 7 3).
  - right. right. left. exists (mkAttr (QId A_Fill) (VPaint 7 None)). split; [exact H1|reflexivity].
  - apply ka_one. right. right. right. exact H2.
Qed.
Print Assumptions C26_refuted.
(* C26, when the removed nodes carry no links, and for orderly histories, where this is always so. *)
Theorem C26_drop_partial D : reachable D -> acyclic_dom D -> (forall n, is_detached D n = true -> unlinked D n) ->
  exists D', drop_document D = Ok D' /\ forall n, ~ keeps_alive D' n n.
Proof. exact (drop_api D). Qed.
Print Assumptions C26_drop_partial.
Theorem C26_drop_orderly_partial D : reachable_orderly D ->
  exists D', drop_document D = Ok D' /\ forall n, ~ keeps_alive D' n n.
Proof. exact (drop_orderly D). Qed.
Print Assumptions C26_drop_orderly_partial.
Example C26_case : reachable_orderly doc /\ keeps_alive doc 3 3.
Proof.
  split; [exact doc_orderly|]. apply (ka_more _ 3 7 3).
  - right. right. left. exists (mkAttr (QId A_Fill) (VPaint 7 (Some FNone))). split; [vm_compute; tauto|reflexivity].
  - apply ka_one. right. right. right. vm_compute. tauto.
Qed.

(* Without any assumption on the shape of the document: when drop returns, what it does, and what keeps what alive
   afterwards.  In particular a cycle is left exactly when there is one among the references that remain. *)
Theorem C26_returns_partial D F : reachable D -> shows (lk D) F ->
  ((exists D', drop_document D = Ok D') <-> forall n, ~ drop_blocked D F n) /\
  ((exists n, drop_blocked D F n) -> drop_document D = Panic PBorrow).
Proof. exact (drop_returns_api D F). Qed.
Print Assumptions C26_returns_partial.
Theorem C26_effect_partial D F D' : reachable D -> shows (lk D) F -> drop_document D = Ok D' ->
  exists F', shows (lk D') F' /\
    (forall n, is_detached D n = false ->
       attributes D' n = [] /\ linked_nodes D' n = [] /\ parent_of F' n = None /\ siblings_of F' n = [n]) /\
    (forall n, is_detached D n = true -> attributes D' n = attributes D n /\ linked_nodes D' n = linked_nodes D n /\
       parent_of F' n = parent_of F n /\ siblings_of F' n = filter (is_detached D) (siblings_of F n)) /\
    (forall n, children_of F' n = filter (is_detached D) (children_of F n)).
Proof. exact (drop_effect_api D F D'). Qed.
Print Assumptions C26_effect_partial.
Theorem C26_exact_partial D F D' : reachable D -> shows (lk D) F -> drop_document D = Ok D' ->
  forall a b, keeps_alive D' a b <-> remains_chain D F a b.
Proof. exact (drop_alive_api D F D'). Qed.
Print Assumptions C26_exact_partial.
(* Both outcomes occur: a node that is its own only child, and removed nodes that link to each other. *)
Example C26_outcomes : (reachable ownp /\ drop_document ownp = Panic PBorrow /\ exists F n, shows (lk ownp) F /\ drop_blocked ownp F n) /\
  (reachable zombie /\ (exists D', drop_document zombie = Ok D') /\
   forall F, remains_chain zombie F 3 7 /\ remains_chain zombie F 7 3).
Proof.
  split.
  - split; [exact ownp_reachable|]. split; [vm_compute; reflexivity|].
    destruct (reachable_shows ownp ownp_reachable) as (F & S). exists F, 1. split; [exact S|].
    assert (Hp : parent_of F 1 = Some 1) by (rewrite <- (sh_parent _ _ S); vm_compute; reflexivity).
    split; [exact Hp|]. exists 1. split; [vm_compute; reflexivity|]. left.
    intros x (l1 & l2 & l3 & E). exfalso.
    assert (Hn : succ_in 1 (siblings_of F 1) = None).
    { rewrite <- (sh_next _ _ S). vm_compute. reflexivity. }
    apply (proj1 (succ_none_after 1 _ (wf_nodup F (sh_wf _ _ S) 1) (wf_self F (sh_wf _ _ S) 1)) Hn x).
    now exists l1, l2, l3.
  - split; [apply HistoryProofs.tame_reachable, zombie_tame|]. split.
    { destruct (drop_document zombie) as [D'| |] eqn:E; [eauto|vm_compute in E; discriminate..]. }
    intros F. split; apply rc_one.
    + apply (rm_link _ _ 3 7 (mkAttr (QId A_Fill) (VPaint 7 None))); vm_compute; tauto.
    + apply rm_user; vm_compute; tauto.
Qed.
