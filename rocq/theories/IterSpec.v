(* Specification of the iterators: a double-ended iterator over a list is a deque. *)
From Coq Require Import List.
From Verif Require Import Base ForestSpec Iter.
Import ListNotations.

(* A call of next() or next_back(). *)
Inductive pull := Front | Back.

(* What a double-ended iterator over the list [l] has to answer to a sequence of calls. *)
Fixpoint deque_run {A} (l : list A) (calls : list pull) : list (option A) :=
  match calls with
  | [] => []
  | Front :: cs =>
      match l with
      | [] => None :: deque_run [] cs
      | x :: l' => Some x :: deque_run l' cs
      end
  | Back :: cs =>
      match rev l with
      | [] => None :: deque_run [] cs
      | x :: r => Some x :: deque_run (rev r) cs
      end
  end.

(* The answers of the modelled iterators to the same sequence. *)
Fixpoint children_run (L : Links.links) (it : children_it) (calls : list pull) : list (option nid) :=
  match calls with
  | [] => []
  | Front :: cs => let r := children_next L it in fst r :: children_run L (snd r) cs
  | Back :: cs => let r := children_next_back L it in fst r :: children_run L (snd r) cs
  end.

Fixpoint traverse_run (L : Links.links) (it : traverse_it) (calls : list pull) : list (option edge) :=
  match calls with
  | [] => []
  | Front :: cs => let r := traverse_next L it in fst r :: traverse_run L (snd r) cs
  | Back :: cs => let r := traverse_next_back L it in fst r :: traverse_run L (snd r) cs
  end.

(* Start and end tags of a tree in document order. *)
Fixpoint edges (t : tree) : list edge :=
  match t with T n ts => Start n :: flat_map edges ts ++ [End n] end.

(* The chain of ancestors of a node, nearest first, the node itself included. *)
Inductive ancestor_chain (F : forest) : nid -> list nid -> Prop :=
| ac_top : forall n, parent_of F n = None -> ancestor_chain F n [n]
| ac_up : forall n p l, parent_of F n = Some p -> ancestor_chain F p l -> ancestor_chain F n (n :: l).
