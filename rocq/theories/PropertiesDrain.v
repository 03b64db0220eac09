(* C83: Document::drain with a closure that edits nodes. *)
From Coq Require Import List Bool PeanoNat NArith String.
From Verif Require Import Base Ids Links Tree ForestSpec TreeSpec TreeApi Data Attrs Slab NodeApi AttrSpec Doc History DocSpec LoopSpec
  ApiProofs Replay TextSamples Samples DrainEdit DrainEditSpec DrainEditProofs DrainEditSamples.
Import ListNotations.
Open Scope list_scope.

Definition says_yes (r : res (bool * dom)) : bool := match r with Ok (b, _) => b | _ => false end.
Lemma yes_case r : says_yes r = true -> exists D, r = Ok (true, D).
Proof. destruct r as [[b D]| |]; [cbn; intros ->; exists D; reflexivity|discriminate|discriminate]. Qed.
Lemma same_run f fuel n D r : e_drain fuel n f D = Ok r -> forall more, e_drain (fuel + more) n f D = Ok r.
Proof.
  intros E more. unfold e_drain in *.
  rewrite (e_drain_mono f fuel (fuel + more)); [exact E|apply Nat.le_add_r|rewrite E; discriminate].
Qed.

(* C83: drain with a closure that edits nodes returns, leaves a document that calls lead to, and keeps only nodes
   the closure said no to.  False if the closure moves nodes.
   1. The closure detaches gradients and says yes to them.  Drain removes 7 and returns, but its sibling 8 is left,
      to which the closure says yes before and after.
   2. The closure moves each node to the front of its siblings and says no: drain does not return. *)
Theorem C83_refuted :
  (exists D f n, reachable_tame D /\ only tame_edit f /\
     exists D' x, (exists fuel, forall more, e_drain (fuel + more) n f D = Ok (D', 1)) /\
       parent (lk D') x = Some n /\ (exists D1, f D x = Ok (true, D1)) /\ (exists D1, f D' x = Ok (true, D1))) /\
  (exists D f n, reachable_tame D /\ exists_node D n /\ only any_edit f /\ forall fuel, e_drain fuel n f D = Diverge).
Proof.
  split.
  - exists doc, cut_gradients, 1. split; [exact doc_tame|]. split; [exact cut_gradients_only|].
    destruct (ok_case_fst (e_drain 20 1 cut_gradients doc) 1
      (fun D => parent (lk D) 8 = Some 1 /\ says_yes (cut_gradients D 8) = true)) as (D' & E & Hp & Hy).
    { vm_compute. repeat split; reflexivity. }
    exists D', 8. split; [exists 20; exact (same_run cut_gradients 20 1 doc (D', 1) E)|]. split; [exact Hp|].
    split; [apply yes_case; vm_compute; reflexivity|apply yes_case; exact Hy].
  - exists pair, to_front, 0. split; [exact pair_tame|]. split; [apply Nat.ltb_lt; vm_compute; reflexivity|].
    split; [exact to_front_only|]. exact pair_forever.
Qed.
Print Assumptions C83_refuted.

(* Proved: whatever the closure does to nodes, if drain returns, the document is one that calls lead to, without
   cycles if the closure makes none. *)
Theorem C83_safe_partial fuel f D n r : e_drain fuel n f D = Ok r ->
  (reachable D -> only any_edit f -> reachable (fst r)) /\
  (reachable_tame D -> only tame_edit f -> reachable_tame (fst r)).
Proof. intros E. split; intros R H; [exact (drain_reachable fuel f D n r R H E)|exact (drain_tame fuel f D n r R H E)]. Qed.
Print Assumptions C83_safe_partial.

(* If the closure does not move nodes and does not panic, the whole claim holds: drain returns the number of
   subtrees it removed, and when asked the closure said yes for the top of each and no for each node left. *)
Theorem C83_still_partial D F t f : reachable D -> shows (lk D) F -> tree_at F t -> exists_node D (t_node t) ->
  only data_edit f -> total f ->
  exists fuel D' F' ms,
    (forall more, e_drain (fuel + more) (t_node t) f D = Ok (D', List.length ms)) /\
    drained_while f D D' (t_kids t) ms /\
    shows (lk D') F' /\ pruned (flat_map preorder ms) F F'.
Proof. exact (e_drain_spec D F t f). Qed.
Print Assumptions C83_still_partial.

(* A closure that takes the fill attribute away from each node and says yes to texts: 5 and 6 are removed, 3 has no
   fill left, 7 has lost its user 3. *)
Example C83_case : reachable doc /\ exists_node doc 0 /\ only data_edit unpaint /\ total unpaint /\
  only tame_edit cut_gradients /\ only any_edit to_front /\
  linked_nodes doc 7 = [3; 4; 8] /\ has_attribute doc 3 (QId A_Fill) = true /\
  (exists D', e_drain 20 0 unpaint doc = Ok (D', 1) /\
     first_child (lk D') 1 = Some 2 /\ next_sibling (lk D') 2 = Some 7 /\ has_attribute D' 3 (QId A_Fill) = false /\ linked_nodes D' 7 = [4; 8]) /\
  (exists D', e_drain 20 0 cut_gradients doc = Ok (D', 1) /\ next_sibling (lk D') 5 = Some 8).
Proof.
  split; [exact doc_reachable|]. split; [apply Nat.ltb_lt; vm_compute; reflexivity|]. split; [exact unpaint_only|].
  split; [exact unpaint_total|]. split; [exact cut_gradients_only|]. split; [exact to_front_only|].
  split; [vm_compute; reflexivity|]. split; [vm_compute; reflexivity|]. split; apply ok_case_fst; vm_compute; repeat split; reflexivity.
Qed.
