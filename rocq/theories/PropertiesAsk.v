(* C86: which nodes drain asks its closure about, and a closure that panics. *)
From Coq Require Import List Bool PeanoNat NArith String.
From Verif Require Import Base Ids Links Tree ForestSpec TreeSpec TreeApi Data Attrs Slab NodeApi Doc History DocSpec LoopSpec
  ApiProofs Samples TextSamples DrainAsk DrainAskSpec DrainAskProofs.
Import ListNotations.
Open Scope list_scope.

(* C86: the closure of drain may remember what it was asked, and may panic.  It is asked about the nodes below the
   given one in document order, leaving out the nodes below those it said yes to; when it has said yes to a node,
   the node is removed before the next question.  If it panics, the questions end there, and the document is what
   it is after the removals so far: a document that calls lead to, without the subtrees [ms], the tops of which are
   the nodes it said yes to. *)
Theorem C86_asked {M} D F t (f : asker M) m : reachable D -> shows (lk D) F -> tree_at F t -> exists_node D (t_node t) ->
  exists c m1 m' D' o ms F', a_drain (t_node t) f m D = Ok (m', D', o) /\ session f m D c m1 D' /\ reachable D' /\
    map t_node ms = yes c /\ (forall u, In u ms -> In u (flat_map subtrees (t_kids t))) /\
    removed (flat_map preorder ms) D D' /\ shows (lk D') F' /\ pruned (flat_map preorder ms) F F' /\
    ((o = Some (List.length (yes c)) /\ m' = m1 /\ flat_map (order (yes c)) (t_kids t) = map fst c) \/
     (o = None /\ exists n rest, f m1 D' n = (m', None) /\ flat_map (order (yes c)) (t_kids t) = map fst c ++ n :: rest)).
Proof. exact (a_drain_spec D F t f m). Qed.
Print Assumptions C86_asked.
(* So it is asked about no node twice, and not about the given node. *)
Theorem C86_once D F t s : reachable D -> shows (lk D) F -> tree_at F t ->
  NoDup (flat_map (order s) (t_kids t)) /\ ~ In (t_node t) (flat_map (order s) (t_kids t)).
Proof. exact (asked_once D F t s). Qed.
Print Assumptions C86_once.
(* A closure that remembers nothing and does not panic: drain as in C22. *)
Theorem C86_plain {M} root f (m : M) D :
  a_drain root (fun m D n => (m, Some (f D n))) m D = (r <- drain root f D ;; Ok (m, fst r, Some (snd r))).
Proof. exact (plain_drain root f m D). Qed.
Print Assumptions C86_plain.

(* It remembers the nodes it was asked about, says yes to 3 and panics when asked about [k]. *)
Definition recorder (k : nid) : asker (list nid) := fun m D n =>
  (m ++ [n], if Nat.eqb n k then None else Some (Nat.eqb n 3 || Nat.eqb n 5)).
Definition doc_tree : tree := T 0 [T 1 [T 2 [T 3 []; T 4 []]; T 5 [T 6 []]; T 7 []; T 8 []]].
Definition asked_case (r : res (list nid * dom * option nat)) (m : list nid) (o : option nat) (p : dom -> bool) : bool :=
  match r with
  | Ok (m', D, o') => (if list_eq_dec Nat.eq_dec m' m then true else false) &&
      match o, o' with None, None => true | Some a, Some b => Nat.eqb a b | _, _ => false end && p D
  | _ => false
  end.
Example C86_case : reachable doc /\ exists_node doc 0 /\
  (exists F, shows (lk doc) F /\ tree_at F doc_tree) /\ linked_nodes doc 7 = [3; 4; 8] /\
  asked_case (a_drain 0 (recorder 7) [] doc) [1; 2; 3; 4; 5; 7] None (fun D =>
    is_detached D 3 && is_detached D 5 && is_detached D 6 && negb (is_detached D 7) &&
    (if list_eq_dec Nat.eq_dec (linked_nodes D 7) [4; 8] then true else false)) = true /\
  asked_case (a_drain 0 (recorder 9) [] doc) [1; 2; 3; 4; 5; 7; 8] (Some 2) (fun D => negb (is_detached D 7)) = true.
Proof.
  split; [exact doc_reachable|]. split; [apply Nat.ltb_lt; vm_compute; reflexivity|]. split.
  { destruct (reachable_shows doc doc_reachable) as (F & S). exists F. split; [exact S|].
    apply (tree_b_ok doc F doc_tree S). vm_compute. reflexivity. }
  split; [vm_compute; reflexivity|]. split; vm_compute; reflexivity.
Qed.
