(* C88: opposite calls undo each other. *)
From Coq Require Import List Bool PeanoNat NArith String Sorting.Permutation.
From Verif Require Import Base Ids Links Tree ForestSpec TreeSpec TreeApi Data Attrs Slab NodeApi AttrSpec Doc History DocSpec
  HistoryProofs ApiProofs Replay Samples UndoSpec UndoProofs.
Import ListNotations.
Open Scope list_scope.

(* C88 as stated is false: a copy with a link that has a custom name stays a user of its target when it is removed;
   and a node that was inserted before its own child cannot be detached. *)
Theorem C88_copy_refuted : exists D n m D' D'', reachable_tame D /\ exists_node D n /\ copy_node_deep n D = Ok (m, D') /\
  remove_node m D' = Ok D'' /\ uses_count D 8 = 1 /\ uses_count D'' 8 = 2.
Proof.
  assert (X : exists D', copy_node_deep 5 named_link = Ok (9, D') /\
    match remove_node 9 D' with Ok D'' => uses_count D'' 8 = 2 | _ => False end).
  { apply ok_case_snd. vm_compute. split; reflexivity. }
  destruct X as (D' & E & X). destruct (remove_node 9 D') as [D''| |] eqn:E'; try contradiction.
  exists named_link, 5, 9, D', D''. split; [exact named_link_tame|]. split; [apply Nat.leb_le; vm_compute; reflexivity|].
  split; [exact E|]. split; [exact E'|]. split; [vm_compute; reflexivity|exact X].
Qed.
Print Assumptions C88_copy_refuted.
Definition own_child_ops : list op := [OCreateElement (QId E_G); OCreateElement (QId E_Rect); OAppend 1 2].
Definition own_child : dom := get (run all_check own_child_ops).
Theorem C88_insert_refuted : exists D a n D', reachable D /\ stands_alone D n /\ exists_node D n /\
  step (OInsertBefore a n) D = Ok D' /\ step (ODetach n) D' = Panic PBorrow.
Proof.
  assert (X : exists D', step (OInsertBefore 2 1) own_child = Ok D' /\ step (ODetach 1) D' = Panic PBorrow).
  { apply ok_case. vm_compute. reflexivity. }
  destruct X as (D' & E & E'). exists own_child, 2, 1, D'. split; [exact (sample_reachable own_child_ops eq_refl)|].
  split; [vm_compute; repeat split; reflexivity|]. split; [apply Nat.leb_le; vm_compute; reflexivity|]. split; [exact E|exact E'].
Qed.
Print Assumptions C88_insert_refuted.

(* A node that stands alone is inserted, and detached again. *)
Theorem C88_insert_partial D p n o D' : reachable D -> exists_node D p -> exists_node D n -> stands_alone D n ->
  o = OAppend p n \/ o = OPrepend p n \/ (o = OInsertAfter p n \/ o = OInsertBefore p n) /\ parent (lk D) p <> Some n ->
  step o D = Ok D' -> exists D'', step (ODetach n) D' = Ok D'' /\ as_before D D''.
Proof.
  intros H Hp Hn Ha Ho E. apply (taken_back o D D' n H); [|exact Hn|exact Ha|exists p; exact Ho|exact E].
  destruct Ho as [-> | [-> | ([-> | ->] & _)]]; (split; [|exact Logic.I]); now intros m [<-|[<-|[]]].
Qed.
Print Assumptions C88_insert_partial.
(* A node is detached, and put back where it was. *)
Theorem C88_detach D n : reachable D -> acyclic_dom D -> exists_node D n ->
  exists D', step (ODetach n) D = Ok D' /\
    (forall b, previous_sibling (lk D) n = Some b -> exists D'', step (OInsertAfter b n) D' = Ok D'' /\ as_before D D'') /\
    (forall c, next_sibling (lk D) n = Some c -> exists D'', step (OInsertBefore c n) D' = Ok D'' /\ as_before D D'') /\
    (forall p, parent (lk D) n = Some p -> next_sibling (lk D) n = None ->
       exists D'', step (OAppend p n) D' = Ok D'' /\ as_before D D'') /\
    (forall p, parent (lk D) n = Some p -> previous_sibling (lk D) n = None ->
       exists D'', step (OPrepend p n) D' = Ok D'' /\ as_before D D'').
Proof. exact (put_back D n). Qed.
Print Assumptions C88_detach.
(* A new attribute is set, and removed. *)
Theorem C88_attribute D n a : reachable D -> legal (OSetAttribute n a) D -> is_element D n = true -> refused D n a = None ->
  ~ In (a_name a) (map a_name (attributes D n)) ->
  exists D' D'', set_attribute n a D = Ok D' /\ remove_attribute n (a_name a) D' = Ok D'' /\ as_before D D''.
Proof. exact (attribute_back D n a). Qed.
Print Assumptions C88_attribute.
(* The id, the text and the tag name of a node are set, and set back. *)
Theorem C88_setters D n : reachable D ->
  (forall s, is_element D n = true ->
     exists D' D'', set_id n s D = Ok D' /\ set_id n (id_of D n) D' = Ok D'' /\ as_before D D'') /\
  (forall s, is_element D n = false ->
     exists D' D'', set_text n s D = Ok D' /\ set_text n (text_of D n) D' = Ok D'' /\ as_before D D'') /\
  (forall t, is_element D n = true -> t <> QName [] ->
     exists D' D'', set_tag_name n t D = Ok D' /\ set_tag_name n (tag_name D n) D' = Ok D'' /\ as_before D D'').
Proof.
  exact (fun H => conj (fun s => id_back D n s) (conj (fun s => text_back D n s) (fun t => tag_back D n t H))).
Qed.
Print Assumptions C88_setters.
(* A node is created or a subtree is copied, and removed. *)
Theorem C88_create D n D' : reachable D ->
  (exists t, create_element t D = Ok (n, D')) \/ (exists ty s, create_node ty s D = Ok (n, D')) ->
  exists D'', remove_node n D' = Ok D'' /\ as_before D D''.
Proof. exact (create_back D n D'). Qed.
Print Assumptions C88_create.
Theorem C88_copy_partial D F t m D' : reachable D -> shows (lk D) F -> tree_at F t -> exists_node D (t_node t) ->
  (forall x, In x (preorder t) -> svg_links_only D x) -> copy_node_deep (t_node t) D = Ok (m, D') ->
  exists D'', remove_node m D' = Ok D'' /\ as_before D D''.
Proof. exact (copy_back D F t m D'). Qed.
Print Assumptions C88_copy_partial.
(* The second of two equal calls changes nothing. *)
Theorem C88_twice D n : reachable D -> exists_node D n ->
  (forall D', step (ODetach n) D = Ok D' -> exists D'', step (ODetach n) D' = Ok D'' /\ as_before D' D'') /\
  (forall a D', legal (OSetAttribute n a) D -> is_element D n = true -> set_attribute n a D = Ok D' ->
     exists D'', set_attribute n a D' = Ok D'' /\ as_before D' D'').
Proof.
  exact (fun H Hn => conj (fun D' => detach_twice D n D' H Hn) (fun a D' Hl He => set_twice D n a D' H Hl He)).
Qed.
Print Assumptions C88_twice.

(* All hypotheses are met by the sample document; the order of the users may indeed change. *)
Definition two_links : attr := mkAttr (QId A_Stroke) (VFuncLink 7).
Example C88_case : reachable doc /\ acyclic_dom doc /\ exists_node doc 3 /\ previous_sibling (lk doc) 4 = Some 3 /\
  next_sibling (lk doc) 3 = Some 4 /\ parent (lk doc) 3 = Some 2 /\ previous_sibling (lk doc) 3 = None /\
  is_element doc 3 = true /\ is_element doc 6 = false /\
  legal (OSetAttribute 3 two_links) doc /\ refused doc 3 two_links = None /\ ~ In (a_name two_links) (map a_name (attributes doc 3)) /\
  (exists D', (D <- set_attribute 3 two_links doc ;; remove_attribute 3 (QId A_Stroke) D) = Ok D' /\
     linked_nodes doc 7 = [3; 4; 8] /\ linked_nodes D' 7 = [4; 8; 3]) /\
  (exists F t, shows (lk doc) F /\ tree_at F t /\ t_node t = 2 /\ exists r, copy_node_deep 2 doc = Ok r) /\
  (forall x, svg_links_only doc x) /\
  (reachable own_child /\ stands_alone own_child 1 /\ exists D', step (OAppend 0 1) own_child = Ok D').
Proof.
  split; [exact doc_reachable|]. split; [exact doc_acyclic|]. split; [apply Nat.leb_le; vm_compute; reflexivity|].
  do 6 (split; [vm_compute; reflexivity|]). split; [apply (legalb_ok (OSetAttribute 3 two_links) doc); vm_compute; reflexivity|].
  split; [vm_compute; reflexivity|]. split; [vm_compute; intuition discriminate|].
  split; [apply ok_case; vm_compute; split; reflexivity|]. split.
  { destruct (reachable_shows doc doc_reachable) as (F & S). exists F.
    destruct (ForestFacts.tree_exists F 2 (sh_wf _ _ S) (shows_acyclic doc F doc_reachable doc_acyclic S)) as (t & Et & Ht).
    exists t. split; [exact S|]. split; [exact Ht|]. split; [exact Et|]. eexists. vm_compute. reflexivity. }
  split.
  { intros x a t Ha. do 9 (destruct x as [|x]; [vm_compute in Ha; intuition (subst; cbn; eauto)|]). vm_compute in Ha. contradiction. }
  split; [exact (sample_reachable own_child_ops eq_refl)|]. split; [vm_compute; repeat split; reflexivity|].
  eexists. vm_compute. reflexivity.
Qed.
