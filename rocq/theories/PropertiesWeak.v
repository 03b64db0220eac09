(* C84: programs that drop handles. *)
From Coq Require Import List Bool PeanoNat NArith String Lia.
From Verif Require Import Base Ids Links Tree ForestSpec TreeSpec TreeApi Data Attrs Slab NodeApi AttrSpec Doc History DocSpec LifeSpec
  RootSpec HistoryProofs ApiProofs Replay Samples Weak WeakSpec WeakProofs PropertiesNode.
Import ListNotations.
Open Scope list_scope.

(* C84: whichever handles the user has dropped, each call gives what it gives if all handles are kept: weak pointers
   that a call upgrades are not dead. *)
Theorem C84_calls w D o : owned_live w -> reachable_orderly D -> legal o D -> orderly o D -> w_step w o D = step o D.
Proof. intros Hw. exact (dropping_same w Hw o D). Qed.
Print Assumptions C84_calls.
Theorem C84_getters w D n : owned_live w -> reachable_orderly D ->
  w_parent (w D) (lk D) n = parent (lk D) n /\ w_last_child (w D) (lk D) n = last_child (lk D) n /\
  w_previous_sibling (w D) (lk D) n = previous_sibling (lk D) n.
Proof. intros Hw. exact (dropping_getters w Hw D n). Qed.
Print Assumptions C84_getters.
(* The same documents are reached. *)
Theorem C84_histories w D : owned_live w -> reached_dropping w D <-> reachable_orderly D.
Proof. intros Hw. exact (dropping_reached w Hw D). Qed.
Print Assumptions C84_histories.
(* root() of nodes of the document, where C11 is proved. *)
Theorem C84_root w D n : owned_live w -> reachable_ready D -> top_of (lk D) n (droot D) ->
  w_root (w D) (lk D) n = Ok (droot D).
Proof. intros Hw. exact (dropping_root w Hw D n). Qed.
Print Assumptions C84_root.

(* The user keeps no handle at all. *)
Definition none_kept (D : dom) (n : nid) : bool := Nat.eqb n (droot D) || mem n (slab_iter (store D)).
Lemma none_kept_live : owned_live none_kept.
Proof.
  intros D n [->|H]; unfold none_kept; [now rewrite Nat.eqb_refl|]. rewrite (proj2 (ListFacts.mem_In n _) H). apply orb_true_r.
Qed.
(* Removing 2 frees 2, 3 and 4, and the calls go on; and if a removed node is used again, as in C65, parent() of
   its new child does not see it, and root() of a detached node panics. *)
Definition later_ops : list op := [ORemoveNode 2; OPrepend 1 7; OCopyNodeDeep 1; OAppend 9 7].
Fixpoint w_run (w : dom -> nid -> bool) (ops : list op) (D : dom) : res dom :=
  match ops with [] => Ok D | o :: t => D <- w_step w o D ;; w_run w t D end.
Example C84_case : owned_live none_kept /\ reachable_orderly doc /\ reachable_ready doc /\ top_of (lk doc) 1 (droot doc) /\
  (exists D', w_run none_kept later_ops doc = Ok D' /\
     none_kept D' 2 = false /\ none_kept D' 3 = false /\ none_kept D' 9 = true /\
     w_last_child (none_kept D') (lk D') 9 = Some 7 /\ w_parent (none_kept D') (lk D') 7 = Some 9) /\
  parent (lk dead_parent) 2 = Some 1 /\ w_parent (none_kept dead_parent) (lk dead_parent) 2 = None /\
  w_root (none_kept dead_root) (lk dead_root) 2 = Panic PUnwrap.
Proof.
  split; [exact none_kept_live|]. split; [exact doc_orderly|]. split; [exact (proj1 (proj2 (proj2 (proj2 (proj2 (proj2 C65_case))))))|].
  split; [exact (proj2 (proj2 (proj2 (proj2 (proj2 (proj2 C65_case))))))|].
  split; [apply ok_case; vm_compute; repeat split; reflexivity|].
  split; [vm_compute; reflexivity|]. split; vm_compute; reflexivity.
Qed.
