(* Specification: iterators in a document that changes between the calls of next(). *)
From Coq Require Import List.
From Verif Require Import Base Links Tree Iter ForestSpec IterSpec TreeSpec NodeApi.
Import ListNotations.

(* The answers of an iterator to one call of next() in each of the documents of the list, in this order. *)
Fixpoint children_session (Ds : list dom) (it : children_it) : list (option nid) :=
  match Ds with
  | [] => []
  | D :: Ds => let r := children_next (lk D) it in fst r :: children_session Ds (snd r)
  end.
Fixpoint children_back_session (Ds : list dom) (it : children_it) : list (option nid) :=
  match Ds with
  | [] => []
  | D :: Ds => let r := children_next_back (lk D) it in fst r :: children_back_session Ds (snd r)
  end.
Fixpoint traverse_session (Ds : list dom) (it : traverse_it) : list (option edge) :=
  match Ds with
  | [] => []
  | D :: Ds => let r := traverse_next (lk D) it in fst r :: traverse_session Ds (snd r)
  end.
(* descendants(): one call may take several steps, so it takes fuel. *)
Fixpoint descendants_session (fuel : nat) (Ds : list dom) (it : traverse_it) : res (list (option nid)) :=
  match Ds with
  | [] => Ok []
  | D :: Ds =>
      r <- descendants_next fuel (lk D) it ;;
      l <- descendants_session fuel Ds (snd r) ;;
      Ok (fst r :: l)
  end.

(* The nodes [l], which a loop has still to visit, stand at the end (at the beginning) of one list of
   siblings. *)
Definition still_last (D : dom) (l : list nid) : Prop :=
  exists F, shows (lk D) F /\ forall c, In c l -> exists pre, siblings_of F c = pre ++ l.
Definition still_first (D : dom) (l : list nid) : Prop :=
  exists F, shows (lk D) F /\ forall c, In c l -> exists post, siblings_of F c = l ++ post.

(* The edges [l] are the last ones of the walk through the subtree of [root]. *)
Definition still_ahead (D : dom) (root : nid) (l : list edge) : Prop :=
  exists F t pre, shows (lk D) F /\ tree_at F t /\ t_node t = root /\ edges t = pre ++ l.

(* The nodes that start in a list of edges. *)
Fixpoint started (l : list edge) : list nid :=
  match l with
  | [] => []
  | Start n :: l => n :: started l
  | End _ :: l => started l
  end.
(* What follows the first start. *)
Fixpoint after_start (l : list edge) : list edge :=
  match l with
  | [] => []
  | Start _ :: l => l
  | End _ :: l => after_start l
  end.
(* What is ahead after [i] nodes were visited. *)
Fixpoint ahead (i : nat) (l : list edge) : list edge :=
  match i with
  | O => l
  | S i => ahead i (after_start l)
  end.

(* The first [k] answers of an iterator over the list [l]. *)
Definition answers {A} (l : list A) (k : nat) : list (option A) := map (nth_error l) (seq 0 k).
