(* C79: calls of Document while the user holds guards of nodes. *)
From Coq Require Import List Bool PeanoNat NArith String.
From Verif Require Import Base Ids Links Tree ForestSpec TreeSpec Data Attrs Slab NodeApi AttrSpec Doc History DocSpec
  Replay Guards GuardSpec GuardDoc GuardDocSpec GuardDocApi GuardFree TextSamples Samples.
Import ListNotations.
Open Scope string_scope.

(* C79: remove_node, drain, copy_node_deep and the drop of the document under guards do what they do without,
   or panic; they panic exactly if the call writes a node with a guard or reads one with a RefMut. *)
Theorem C79_remove_node g D F t : reachable D -> shows (lk D) F -> tree_at F t -> exists_node D (t_node t) ->
  exists D', remove_node (t_node t) D = Ok D' /\
    same_unless (removal_blocked g (preorder t) D D') (remove_node (t_node t) D) (g_remove_node g (t_node t) D).
Proof. exact (remove_node_under g D F t). Qed.
Print Assumptions C79_remove_node.
Theorem C79_drain g D F t f : reachable D -> shows (lk D) F -> tree_at F t -> exists_node D (t_node t) -> stable f D ->
  let tops := flat_map (maximal (f D)) (t_kids t) in
  exists D', drain (t_node t) f D = Ok (D', List.length tops) /\
    same_unless (drain_blocked g (preorder t) (flat_map preorder tops) D D') (drain (t_node t) f D) (g_drain g (t_node t) f D).
Proof. exact (drain_under g D F t f). Qed.
Print Assumptions C79_drain.
Theorem C79_copy_node_deep g D F t : reachable D -> shows (lk D) F -> tree_at F t -> exists_node D (t_node t) ->
  (forall x, held g x -> exists_node D x) ->
  same_unless (copy_blocked g (preorder t) D) (copy_node_deep (t_node t) D) (g_copy_node_deep g (t_node t) D).
Proof. exact (copy_deep_under g D F t). Qed.
Print Assumptions C79_copy_node_deep.
Theorem C79_drop g D : reachable D ->
  (forall q, drop_document D = Panic q -> exists q', g_drop_document g D = Panic q') /\
  (forall D', drop_document D = Ok D' ->
     (drop_blocked_by g D D' -> g_drop_document g D = Panic PBorrow) /\ (~ drop_blocked_by g D D' -> g_drop_document g D = Ok D')).
Proof. exact (drop_under g D). Qed.
Print Assumptions C79_drop.
(* The functions used everywhere else are those with no guard. *)
Theorem C79_free D n : reachable D -> exists_node D n ->
  g_remove_node no_guards n D = remove_node n D /\
  (forall f, g_drain no_guards n f D = drain n f D) /\
  g_copy_node_deep no_guards n D = copy_node_deep n D /\
  g_drop_document no_guards D = drop_document D.
Proof. exact (doc_free D n). Qed.
Print Assumptions C79_free.

Definition group : tree := T 2 [T 3 []; T 4 []].
Definition is_rect (D : dom) (n : nid) : bool := has_tag_name D n (QId E_Rect).
(* 2 is the first child of 1, its children 3 and 4 link to 7, to which 8 links, too.  Removing 2 writes 2, 3, 4,
   the parent 1, the next sibling 5 and the target 7; the text 6, the root 0 and 8 may have guards. *)
Example C79_case : reachable doc /\ exists_node doc (t_node group) /\
  (exists F, shows (lk doc) F /\ tree_at F group) /\ stable is_rect doc /\
  (forall x, In x [1; 2; 3; 4; 5; 7] -> g_remove_node (mkGuards [x] []) 2 doc = Panic PBorrow) /\
  (exists D', remove_node 2 doc = Ok D' /\ g_remove_node (mkGuards [0; 6; 8] []) 2 doc = Ok D' /\
     g_remove_node (mkGuards [] [0; 6; 8]) 2 doc = Ok D') /\
  (* 7 is linked from 8: a RefMut of 8 is in the way, and a Ref, since 8 loses its attribute *)
  (forall x, In x [5; 7; 8; 3; 4] -> g_remove_node (mkGuards [x] []) 7 doc = Panic PBorrow) /\
  (* draining the rectangles of 2 reads 4 and writes 3, its neighbours and its target *)
  (forall x, In x [2; 3; 4; 7] -> g_drain (mkGuards [] [x]) 2 is_rect doc = Panic PBorrow) /\
  (exists D', drain 2 is_rect doc = Ok (D', 1) /\ g_drain (mkGuards [1; 5] [0; 8]) 2 is_rect doc = Ok (D', 1)) /\
  (* copying reads the copied nodes and writes the targets of their links *)
  (forall x, In x [2; 3; 4; 7] -> g_copy_node_deep (mkGuards [] [x]) 2 doc = Panic PBorrow) /\
  (exists D', copy_node_deep 2 doc = Ok (9, D') /\ g_copy_node_deep (mkGuards [2; 3; 4] [0; 1; 5; 8]) 2 doc = Ok (9, D')) /\
  g_copy_node_deep (mkGuards [7] []) 2 doc = Panic PBorrow /\
  (* dropping writes every node that has not been removed *)
  (forall x, In x [0; 1; 2; 3; 4; 5; 6; 7; 8] -> g_drop_document (mkGuards [x] []) doc = Panic PBorrow) /\
  (exists D', drop_document zombie = Ok D' /\ g_drop_document (mkGuards [] [3]) zombie = Ok D') /\
  is_detached zombie 3 = true.
Proof.
  assert (Hall : forall l (P : nid -> Prop), fold_right (fun x Q => P x /\ Q) True l -> forall x, In x l -> P x).
  { intros l P. induction l as [|y l IH]; intros H x []; [subst; apply H|]. apply IH; [apply H|easy]. }
  assert (Hok : forall A (r r' : res A), is_ok r = true -> r' = r -> exists v, r = Ok v /\ r' = Ok v).
  { intros A [v| |] r' H ->; try discriminate. now exists v. }
  split; [exact doc_reachable|]. split; [apply Nat.leb_le; vm_compute; reflexivity|].
  split.
  { destruct (sample_forest doc doc_tame) as (F & S & X); [vm_compute; reflexivity|]. exists F. split; [exact S|].
    apply (tree_b_ok doc F _ S). vm_compute. reflexivity. }
  split; [intros S D' R x _; unfold is_rect, has_tag_name; now rewrite (rv_tag _ _ _ R)|].
  split; [apply Hall; vm_compute; tauto|].
  split.
  { destruct (Hok _ (remove_node 2 doc) (g_remove_node (mkGuards [0; 6; 8] []) 2 doc)) as (D' & E & E'); try (vm_compute; reflexivity).
    exists D'. split; [exact E|]. split; [exact E'|]. rewrite <- E. vm_compute. reflexivity. }
  split; [apply Hall; vm_compute; tauto|]. split; [apply Hall; vm_compute; tauto|].
  split.
  { destruct (Hok _ (drain 2 is_rect doc) (g_drain (mkGuards [1; 5] [0; 8]) 2 is_rect doc)) as ((D' & k) & E & E'); try (vm_compute; reflexivity).
    assert (k = 1) as -> by (apply (f_equal (fun r => match r with Ok (_, k) => k | _ => 0 end)) in E; vm_compute in E; symmetry; exact E).
    exists D'. split; [exact E|exact E']. }
  split; [apply Hall; vm_compute; tauto|].
  split.
  { destruct (Hok _ (copy_node_deep 2 doc) (g_copy_node_deep (mkGuards [2; 3; 4] [0; 1; 5; 8]) 2 doc)) as ((k & D') & E & E'); try (vm_compute; reflexivity).
    assert (k = 9) as -> by (apply (f_equal (fun r => match r with Ok (k, _) => k | _ => 0 end)) in E; vm_compute in E; symmetry; exact E).
    exists D'. split; [exact E|exact E']. }
  split; [vm_compute; reflexivity|]. split; [apply Hall; vm_compute; tauto|].
  split; [apply Hok; vm_compute; reflexivity|]. vm_compute. reflexivity.
Qed.
