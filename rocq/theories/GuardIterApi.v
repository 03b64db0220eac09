(* The iterators under guards, for the documents a user can have. *)
From Coq Require Import List Bool PeanoNat Lia.
From Verif Require Import Base Links Tree Iter ForestSpec TreeSpec TreeProofs TreeApi ForestFacts IterSpec IterProofs
  Data Attrs Slab NodeApi Doc Loops History HistoryProofs ApiProofs SessionProofs
  Guards GuardDoc GuardIter GuardSpec GuardIterSpec GuardIterProofs GuardDesc.
Import ListNotations.

Lemma ancestors_under g D F n : reachable D -> acyclic_dom D -> exists_node D n -> shows (lk D) F ->
  exists l, ancestor_chain F n l /\
    same_unless (some_held g l) (Ok l) (g_ancestors (enough D) g (lk D) n).
Proof.
  intros H A Hn S. destruct (reach_ancestors D F n H A Hn S) as (l & Hl & E). exists l. split; [exact Hl|].
  exact (simple_collect_guards g _ _ _ _ E).
Qed.
Lemma siblings_under g D F n l1 l2 : reachable D -> exists_node D n -> shows (lk D) F ->
  siblings_of F n = l1 ++ n :: l2 ->
  same_unless (some_held g (n :: l2)) (Ok (n :: l2)) (g_following_siblings (enough D) g (lk D) n) /\
  same_unless (some_held g (n :: rev l1)) (Ok (n :: rev l1)) (g_preceding_siblings (enough D) g (lk D) n).
Proof.
  intros H Hn S E. destruct (reach_siblings D F n l1 l2 H Hn S E) as (E1 & E2). split.
  - exact (simple_collect_guards g _ _ _ _ E1).
  - exact (simple_collect_guards g _ _ _ _ E2).
Qed.

Lemma children_next_under g D F p front rest back it : reachable D -> shows (lk D) F ->
  children_walk (lk D) p (children_of F p) front rest back it ->
  fst (children_next (lk D) it) = hd_error rest /\
  same_unless (children_stuck g front rest) (Ok (children_next (lk D) it)) (g_children_next g (lk D) it) /\
  fst (children_next_back (lk D) it) = final rest /\
  same_unless (children_back_stuck g front rest) (Ok (children_next_back (lk D) it))
    (g_children_next_back g (lk D) it).
Proof.
  intros H S Hw. pose proof (proj1 (shows_Rep _ _) S) as R.
  destruct (children_next_guards (lk D) F p front rest back it g R Hw) as (A & B).
  destruct (children_next_back_guards (lk D) F p front rest back it g R Hw) as (A' & B').
  split; [exact A|]. split; [exact B|]. split; [exact A'|exact B'].
Qed.
Lemma children_under g D F p : reachable D -> shows (lk D) F ->
  same_unless (some_held g (p :: children_of F p)) (Ok (children_of F p)) (g_children_list (enough D) g (lk D) p).
Proof.
  intros H S. apply children_list_guards; [exact (proj1 (shows_Rep _ _) S)|]. exact (children_few D F p H S).
Qed.

Lemma traverse_next_under g D F t front rest back it : reachable D -> shows (lk D) F -> tree_at F t ->
  traverse_walk (lk D) (t_node t) (edges t) front rest back it ->
  fst (traverse_next (lk D) it) = hd_error rest /\
  same_unless (traverse_stuck g (t_node t) front rest) (Ok (traverse_next (lk D) it))
    (g_traverse_next g (lk D) it) /\
  fst (traverse_next_back (lk D) it) = final rest /\
  same_unless (traverse_back_stuck g (t_node t) front rest) (Ok (traverse_next_back (lk D) it))
    (g_traverse_next_back g (lk D) it).
Proof.
  intros H S Ht Hw. pose proof (proj1 (shows_Rep _ _) S) as R.
  destruct (traverse_next_guards (lk D) F t front rest back it g R Ht Hw) as (A & B).
  destruct (traverse_next_back_guards (lk D) F t front rest back it g R Ht Hw) as (A' & B').
  split; [exact A|]. split; [exact B|]. split; [exact A'|exact B'].
Qed.

Lemma edges_few D F t : reachable D -> exists_node D (t_node t) -> shows (lk D) F -> tree_at F t ->
  length (edges t) < 2 * enough D.
Proof.
  intros H Hn S Ht. pose proof (tree_size D F t (shows_inv D F H S) Ht Hn). rewrite edges_length.
  unfold enough. lia.
Qed.
Lemma descendants_next_under g D F t front rest it : reachable D -> exists_node D (t_node t) -> shows (lk D) F ->
  tree_at F t -> descendants_walk (lk D) (2 * enough D) (t_node t) (preorder t) front rest it ->
  exists it', descendants_next (2 * enough D) (lk D) it = Ok (hd_error rest, it') /\
    same_unless (descendants_stuck F g (t_node t) front rest) (Ok (hd_error rest, it'))
      (g_descendants_next (2 * enough D) g (lk D) it).
Proof.
  intros H Hn S Ht. exact (descendants_next_guards (lk D) F t (proj1 (shows_Rep _ _) S) Ht g _ front rest it
    (edges_few D F t H Hn S Ht)).
Qed.
Lemma tree_under g D F t : reachable D -> exists_node D (t_node t) -> shows (lk D) F -> tree_at F t ->
  same_unless (some_held g (preorder t)) (Ok (edges t))
    (g_traverse_collect (2 * enough D) g (lk D) (traverse (t_node t))) /\
  same_unless (some_held g (preorder t)) (Ok (preorder t)) (g_descendants (2 * enough D) g (lk D) (t_node t)).
Proof.
  intros H Hn S Ht. pose proof (edges_few D F t H Hn S Ht) as Hf. split.
  - exact (traverse_guards (lk D) F t _ g (proj1 (shows_Rep _ _) S) Ht Hf).
  - exact (descendants_guards (lk D) F t (proj1 (shows_Rep _ _) S) Ht g _ Hf).
Qed.
