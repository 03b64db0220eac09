(* C80: the document after a panic of remove_node, drain or copy_node_deep that was caught. *)
From Coq Require Import List Bool PeanoNat NArith String.
From Verif Require Import Base Ids Links Tree ForestSpec TreeSpec TreeApi Data Attrs Slab NodeApi AttrSpec Doc History DocSpec
  ApiProofs Replay Guards GuardSpec GuardProofs GuardDoc GuardDocSpec Unwind UnwindSpec UnwindTree UnwindAttrs
  UnwindDoc UnwindDocSpec UnwindDocProofs PropertiesUnwind Samples.
Import ListNotations.
Open Scope string_scope.

Definition after {A} (o : run A) : dom := match o with Some (D, _) => D | None => doc end.
Definition panic_of {A} (o : run A) : option panic := match o with Some (_, Panics q) => Some q | _ => None end.
Lemma stopped {A} (o : run A) q : panic_of o = Some q -> o = Some (after o, Panics q).
Proof. destruct o as [[D [a|p]]|]; [discriminate|intros [= ->]; reflexivity|discriminate]. Qed.
Lemma no_longer_child D p c : first_child (lk D) p = Some c -> parent (lk D) c = None -> ~ consistent (lk D).
Proof.
  intros Hf Hp (F & S). destruct S as [W S1 S2 S3 S4 S5]. rewrite S2 in Hf. rewrite S1 in Hp.
  rewrite (wf_child F W p c) in Hp; [discriminate|]. destruct (children_of F p); [discriminate|]. injection Hf as ->. now left.
Qed.
Lemma out_of_step D a b : times a (linked_nodes D b) <> uses D a b -> ~ mirrored D.
Proof. intros H M. apply H, M. Qed.
Definition is_2 (D : dom) (n : nid) : bool := Nat.eqb n 2.

(* C80: if remove_node, drain or copy_node_deep panics and the user goes on, the document is one that other
   calls lead to.  False if the user holds a guard.
   2 is removed while 5, its next sibling, is read: 3 and 4 are gone, 2 has no parent but is the first child of 1.
   2 is removed while 3, in it, is read: 7 has lost its user 3, which still links to it.
   The first again by drain.  2 is copied while 7, which the copy of 3 links to, is read. *)
Theorem C80_refuted : exists D, reachable_orderly D /\ reachable_tame D /\
  (exists g n D' q, lawful g /\ u_remove_node g n D = Some (D', Panics q) /\ ~ consistent (lk D')) /\
  (exists g n D' q, lawful g /\ u_remove_node g n D = Some (D', Panics q) /\ ~ mirrored D') /\
  (exists g n f D' q, lawful g /\ u_drain g n f D = Some (D', Panics q) /\ ~ consistent (lk D')) /\
  (exists g n D' q, lawful g /\ u_copy_node_deep g n D = Some (D', Panics q) /\ ~ mirrored D').
Proof.
  exists doc. split; [exact doc_orderly|]. split; [exact doc_tame|].
  assert (Hl : forall l, lawful (mkGuards l [])) by (intros l; split; [constructor|intros n []]).
  split; [|split; [|split]].
  - assert (E : panic_of (u_remove_node (mkGuards [5] []) 2 doc) = Some PBorrow) by (vm_compute; reflexivity).
    apply stopped in E. exists (mkGuards [5] []), 2, (after (u_remove_node (mkGuards [5] []) 2 doc)), PBorrow.
    split; [apply Hl|]. split; [exact E|]. apply (no_longer_child _ 1 2); vm_compute; reflexivity.
  - assert (E : panic_of (u_remove_node (mkGuards [3] []) 2 doc) = Some PBorrow) by (vm_compute; reflexivity).
    apply stopped in E. exists (mkGuards [3] []), 2, (after (u_remove_node (mkGuards [3] []) 2 doc)), PBorrow.
    split; [apply Hl|]. split; [exact E|]. apply (out_of_step _ 3 7). vm_compute. discriminate.
  - assert (E : panic_of (u_drain (mkGuards [5] []) 1 is_2 doc) = Some PBorrow) by (vm_compute; reflexivity).
    apply stopped in E. exists (mkGuards [5] []), 1, is_2, (after (u_drain (mkGuards [5] []) 1 is_2 doc)), PBorrow.
    split; [apply Hl|]. split; [exact E|]. apply (no_longer_child _ 1 2); vm_compute; reflexivity.
  - assert (E : panic_of (u_copy_node_deep (mkGuards [7] []) 2 doc) = Some PBorrow) by (vm_compute; reflexivity).
    apply stopped in E. exists (mkGuards [7] []), 2, (after (u_copy_node_deep (mkGuards [7] []) 2 doc)), PBorrow.
    split; [apply Hl|]. split; [exact E|]. apply (out_of_step _ 10 7). vm_compute. discriminate.
Qed.
Print Assumptions C80_refuted.

(* Proved: without catching, the calls are those of C79; and after a panic the document is one that other calls
   lead to, in which attributes, users and places in the tree have been taken away and nothing has been added,
   or the panic was in one remove_attribute or one detach, and C74 and C72 say what is broken. *)
Theorem C80_remove_node_partial g n D : reachable D -> exists_node D n ->
  seen_ (u_remove_node g n D) = g_remove_node g n D /\
  forall D' q, u_remove_node g n D = Some (D', Panics q) -> half_removed g D D'.
Proof. exact (remove_node_ends g n D). Qed.
Print Assumptions C80_remove_node_partial.
Theorem C80_drain_partial g n f D : reachable D -> exists_node D n ->
  seen (u_drain g n f D) = g_drain g n f D /\
  forall D' q, u_drain g n f D = Some (D', Panics q) -> half_removed g D D'.
Proof. exact (drain_ends g n f D). Qed.
Print Assumptions C80_drain_partial.
(* After a panic of copy_node_deep all nodes that were there are as they were, but for their users. *)
Theorem C80_copy_node_deep_partial g n D : reachable D -> exists_node D n -> (forall x, held g x -> exists_node D x) ->
  seen (u_copy_node_deep g n D) = (x <- g_copy_node_deep g n D ;; Ok (snd x, fst x)) /\
  forall D' q, u_copy_node_deep g n D = Some (D', Panics q) -> half_copied g D D'.
Proof. exact (copy_deep_ends g n D). Qed.
Print Assumptions C80_copy_node_deep_partial.
(* Without guards the claim holds: remove_node and drain do not panic at all, and copy_node_deep leaves a
   document that other calls lead to. *)
Theorem C80_no_guards n D : reachable D -> exists_node D n ->
  (forall D' q, u_remove_node no_guards n D <> Some (D', Panics q)) /\
  (forall f D' q, u_drain no_guards n f D <> Some (D', Panics q)) /\
  (forall D' q, u_copy_node_deep no_guards n D = Some (D', Panics q) -> reachable D' /\ kept D D').
Proof. exact (free_ends n D). Qed.
Print Assumptions C80_no_guards.

(* Panics of each kind.  Removing 1 while 6 is written: 2, with 3 and 4, is gone by then.  A copy of 2, where 3
   links to a node without id, ends with a copy of 2 and an incomplete copy of 3 outside of it. *)
Example C80_case : reachable doc /\ reachable half /\ exists_node doc 1 /\ exists_node half 2 /\
  (let o := u_remove_node (mkGuards [] [6]) 1 doc in
   panic_of o = Some PBorrow /\ first_child (lk (after o)) 1 = Some 5 /\ first_child (lk (after o)) 5 = Some 6 /\
   parent (lk (after o)) 2 = None /\ first_child (lk (after o)) 2 = None /\ linked_nodes (after o) 7 = [8]) /\
  (let o := u_drain (mkGuards [] [8]) 0 is_2 doc in
   panic_of o = Some PBorrow /\ first_child (lk (after o)) 1 = Some 5 /\ linked_nodes (after o) 7 = [8]) /\
  (let o := u_copy_node_deep no_guards 2 half in
   panic_of o = Some PUnwrap /\ fresh half = 9 /\ fresh (after o) = 11 /\ first_child (lk (after o)) 9 = None /\
   map a_name (attributes (after o) 10) = [QId A_Opacity] /\ map a_name (attributes half 3) = [QId A_Opacity; QId A_Fill]) /\
  panic_of (u_remove_node no_guards 1 doc) = None /\ panic_of (u_copy_node_deep no_guards 1 doc) = None.
Proof.
  split; [exact doc_reachable|]. split; [exact half_reachable|]. split; [apply Nat.ltb_lt; vm_compute; reflexivity|].
  split; [apply Nat.ltb_lt; vm_compute; reflexivity|]. vm_compute. repeat split.
Qed.
