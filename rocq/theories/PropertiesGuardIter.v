(* C81: the iterators while the user holds guards of nodes. *)
From Coq Require Import List Bool PeanoNat NArith String.
From Verif Require Import Base Ids Links Tree Iter ForestSpec TreeSpec IterSpec Data Attrs Slab NodeApi Doc History HistoryProofs ApiProofs
  Guards GuardDoc GuardIter GuardSpec GuardIterSpec GuardIterApi TextSamples Samples.
Import ListNotations.
Open Scope list_scope.

(* C81: the documentation of next() and next_back() says "Panics if the node about to be yielded is currently
   mutably borrowed."  A user who keeps away from that node may expect the next one.  Not so: next() of
   children() panics if the last child is held, next() of descendants() if a node is held that was yielded
   before, and children() panics at its end, when no node is about to be yielded.  On the other hand traverse()
   yields the end of its own node even if it is held. *)
Theorem C81_refuted :
  (exists D g p c it, reachable D /\ lawful g /\ exists_node D p /\
     children_next (lk D) (children (lk D) p) = (Some c, it) /\ ~ held g c /\ ~ held g p /\
     g_children_next g (lk D) (children (lk D) p) = Panic PBorrow) /\
  (exists D g p x y it it', reachable D /\ lawful g /\ exists_node D p /\
     descendants_walk (lk D) (2 * enough D) p [p; y; x] [p; y] [x] it /\
     descendants_next (2 * enough D) (lk D) it = Ok (Some x, it') /\ ~ held g x /\ ~ held g p /\ held_mut g y /\
     g_descendants_next (2 * enough D) g (lk D) it = Panic PBorrow) /\
  (exists D g p c it, reachable D /\ lawful g /\ exists_node D p /\
     children_walk (lk D) p [c] [c] [] [] it /\ children_next (lk D) it = (None, it) /\
     g_children_next g (lk D) it = Panic PBorrow) /\
  (exists D g p it, reachable D /\ lawful g /\ exists_node D p /\ held_mut g p /\
     g_traverse_next g (lk D) it = Ok (traverse_next (lk D) it) /\ fst (traverse_next (lk D) it) = Some (End p)).
Proof.
  assert (Law : forall n, lawful (mkGuards [] [n])).
  { intros n. split; [repeat constructor; easy|]. intros m _ []. }
  split; [|split; [|split]].
  - exists doc, (mkGuards [] [8]), 1, 2, (mkChildren (Some 5) (Some 8)).
    split; [exact doc_reachable|]. split; [apply Law|]. split; [apply Nat.leb_le; vm_compute; reflexivity|].
    split; [vm_compute; reflexivity|]. split; [now intros [[]|[[=]|[]]]|]. split; [now intros [[]|[[=]|[]]]|].
    vm_compute. reflexivity.
  - exists doc, (mkGuards [] [3]), 2, 4, 3, (mkTraverse 2 (Some (End 3)) (Some (End 2))),
      (mkTraverse 2 (Some (End 4)) (Some (End 2))).
    split; [exact doc_reachable|]. split; [apply Law|]. split; [apply Nat.leb_le; vm_compute; reflexivity|].
    split.
    { apply (dw_next _ _ _ _ [2] 3 [4] (mkTraverse 2 (Some (Start 3)) (Some (End 2)))); [|vm_compute; reflexivity].
      apply (dw_next _ _ _ _ [] 2 [3; 4] (traverse 2)); [apply dw_start|vm_compute; reflexivity]. }
    split; [vm_compute; reflexivity|]. split; [now intros [[]|[[=]|[]]]|]. split; [now intros [[]|[[=]|[]]]|].
    split; [now left|]. vm_compute. reflexivity.
  - exists doc, (mkGuards [] [6]), 5, 6, (mkChildren None (Some 6)).
    split; [exact doc_reachable|]. split; [apply Law|]. split; [apply Nat.leb_le; vm_compute; reflexivity|].
    split.
    { apply (walk_front _ _ _ _ [] 6 [] [] (children (lk doc) 5)); [apply walk_start|vm_compute; reflexivity]. }
    split; vm_compute; reflexivity.
  - exists doc, (mkGuards [] [2]), 2, (mkTraverse 2 (Some (End 2)) (Some (End 2))).
    split; [exact doc_reachable|]. split; [apply Law|]. split; [apply Nat.leb_le; vm_compute; reflexivity|].
    split; [now left|]. split; vm_compute; reflexivity.
Qed.
Print Assumptions C81_refuted.

(* The exact conditions.  ancestors(), preceding_siblings() and following_siblings() are as documented: [s] is
   what is about to be yielded. *)
Theorem C81_simple_partial g step s :
  fst (simple_next step s) = s /\
  same_unless (exists n, s = Some n /\ held_mut g n) (Ok (simple_next step s)) (g_simple_next g step s).
Proof. exact (GuardIterProofs.simple_next_guards g step s). Qed.
Print Assumptions C81_simple_partial.
(* children(), at any place of the iteration. *)
Theorem C81_children_partial g D F p front rest back it : reachable D -> shows (lk D) F ->
  children_walk (lk D) p (children_of F p) front rest back it ->
  fst (children_next (lk D) it) = hd_error rest /\
  same_unless (children_stuck g front rest) (Ok (children_next (lk D) it)) (g_children_next g (lk D) it) /\
  fst (children_next_back (lk D) it) = final rest /\
  same_unless (children_back_stuck g front rest) (Ok (children_next_back (lk D) it))
    (g_children_next_back g (lk D) it).
Proof. exact (children_next_under g D F p front rest back it). Qed.
Print Assumptions C81_children_partial.
(* traverse(), at any place of the iteration. *)
Theorem C81_traverse_partial g D F t front rest back it : reachable D -> shows (lk D) F -> tree_at F t ->
  traverse_walk (lk D) (t_node t) (edges t) front rest back it ->
  fst (traverse_next (lk D) it) = hd_error rest /\
  same_unless (traverse_stuck g (t_node t) front rest) (Ok (traverse_next (lk D) it))
    (g_traverse_next g (lk D) it) /\
  fst (traverse_next_back (lk D) it) = final rest /\
  same_unless (traverse_back_stuck g (t_node t) front rest) (Ok (traverse_next_back (lk D) it))
    (g_traverse_next_back g (lk D) it).
Proof. exact (traverse_next_under g D F t front rest back it). Qed.
Print Assumptions C81_traverse_partial.
(* descendants(), at any place of the iteration. *)
Theorem C81_descendants_partial g D F t front rest it : reachable D -> exists_node D (t_node t) -> shows (lk D) F ->
  tree_at F t -> descendants_walk (lk D) (2 * enough D) (t_node t) (preorder t) front rest it ->
  exists it', descendants_next (2 * enough D) (lk D) it = Ok (hd_error rest, it') /\
    same_unless (descendants_stuck F g (t_node t) front rest) (Ok (hd_error rest, it'))
      (g_descendants_next (2 * enough D) g (lk D) it).
Proof. exact (descendants_next_under g D F t front rest it). Qed.
Print Assumptions C81_descendants_partial.
(* Whole loops panic exactly if a yielded node has a RefMut; for children() also if the node itself has one. *)
Theorem C81_loops_partial g D F t : reachable D -> exists_node D (t_node t) -> shows (lk D) F -> tree_at F t ->
  same_unless (some_held g (t_node t :: children_of F (t_node t))) (Ok (children_of F (t_node t)))
    (g_children_list (enough D) g (lk D) (t_node t)) /\
  same_unless (some_held g (preorder t)) (Ok (edges t))
    (g_traverse_collect (2 * enough D) g (lk D) (traverse (t_node t))) /\
  same_unless (some_held g (preorder t)) (Ok (preorder t)) (g_descendants (2 * enough D) g (lk D) (t_node t)).
Proof.
  exact (fun H Hn S Ht => conj (children_under g D F (t_node t) H S) (tree_under g D F t H Hn S Ht)).
Qed.
Print Assumptions C81_loops_partial.
Theorem C81_chains_partial g D F n : reachable D -> acyclic_dom D -> exists_node D n -> shows (lk D) F ->
  (exists l, ancestor_chain F n l /\ same_unless (some_held g l) (Ok l) (g_ancestors (enough D) g (lk D) n)) /\
  (forall l1 l2, siblings_of F n = l1 ++ n :: l2 ->
     same_unless (some_held g (n :: l2)) (Ok (n :: l2)) (g_following_siblings (enough D) g (lk D) n) /\
     same_unless (some_held g (n :: rev l1)) (Ok (n :: rev l1)) (g_preceding_siblings (enough D) g (lk D) n)).
Proof.
  exact (fun H A Hn S => conj (ancestors_under g D F n H A Hn S) (fun l1 l2 => siblings_under g D F n l1 l2 H Hn S)).
Qed.
Print Assumptions C81_chains_partial.

Definition svg_tree : tree := T 1 [T 2 [T 3 []; T 4 []]; T 5 [T 6 []]; T 7 []; T 8 []].
Definition group_tree : tree := T 2 [T 3 []; T 4 []].
(* Three calls into children() of 1: 2, 8 and 5 were yielded, 7 is left.  Five calls into traverse() of 2.
   Three calls into descendants() of 1: 2 and its children are left after 4. *)
Example C81_case :
  reachable doc /\ acyclic_dom doc /\ exists_node doc (t_node svg_tree) /\ exists_node doc (t_node group_tree) /\
  (exists F, shows (lk doc) F /\ tree_at F svg_tree /\ tree_at F group_tree /\
     children_walk (lk doc) 1 (children_of F 1) [2; 5] [7] [8] (mkChildren (Some 7) (Some 7))) /\
  traverse_walk (lk doc) (t_node group_tree) (edges group_tree) [Start 2; Start 3] [End 3; Start 4] [End 4; End 2]
    (mkTraverse 2 (Some (End 3)) (Some (Start 4))) /\
  descendants_walk (lk doc) (2 * enough doc) (t_node svg_tree) (preorder svg_tree) [1; 2; 3; 4] [5; 6; 7; 8]
    (mkTraverse 1 (Some (End 4)) (Some (End 1))) /\
  (* 4 and 2 are left on the way to 5 *)
  (forall x, In x [2; 4; 5] ->
     g_descendants_next (2 * enough doc) (mkGuards [] [x]) (lk doc) (mkTraverse 1 (Some (End 4)) (Some (End 1)))
     = Panic PBorrow) /\
  g_descendants_next (2 * enough doc) (mkGuards [2; 4; 5] [0; 1; 3; 6; 7; 8]) (lk doc)
    (mkTraverse 1 (Some (End 4)) (Some (End 1))) = Ok (Some 5, mkTraverse 1 (Some (Start 6)) (Some (End 1))) /\
  (* children() reads its own node and the children, not their children *)
  g_children_list (enough doc) (mkGuards [1] [0; 3; 4; 6]) (lk doc) 1 = Ok [2; 5; 7; 8] /\
  g_children_list (enough doc) (mkGuards [] [1]) (lk doc) 1 = Panic PBorrow /\
  g_ancestors (enough doc) (mkGuards [6] [2; 7]) (lk doc) 6 = Ok [6; 5; 1; 0] /\
  g_ancestors (enough doc) (mkGuards [] [1]) (lk doc) 6 = Panic PBorrow.
Proof.
  split; [exact doc_reachable|]. split; [exact doc_acyclic|].
  split; [apply Nat.leb_le; vm_compute; reflexivity|]. split; [apply Nat.leb_le; vm_compute; reflexivity|].
  split.
  { destruct (reachable_shows doc doc_reachable) as (F & S). exists F. split; [exact S|].
    assert (Ht : tree_at F svg_tree) by (apply (tree_b_ok doc F svg_tree S); vm_compute; reflexivity).
    split; [exact Ht|]. split; [apply (tree_b_ok doc F group_tree S); vm_compute; reflexivity|].
    inversion Ht as [? ? E _]. cbn [map t_node] in E. rewrite E.
    apply (walk_front _ _ _ _ [2] 5 [7] [8] (mkChildren (Some 5) (Some 7))); [|vm_compute; reflexivity].
    apply (walk_back _ _ _ _ [2] [5; 7] 8 [] (mkChildren (Some 5) (Some 8))); [|vm_compute; reflexivity].
    apply (walk_front _ _ _ _ [] 2 [5; 7; 8] [] (children (lk doc) 1)); [apply walk_start|vm_compute; reflexivity]. }
  split.
  { apply (walk_back _ _ _ _ _ [End 3; Start 4] (End 4) [End 2] (mkTraverse 2 (Some (End 3)) (Some (End 4))));
      [|vm_compute; reflexivity].
    apply (walk_back _ _ _ _ _ [End 3; Start 4; End 4] (End 2) [] (mkTraverse 2 (Some (End 3)) (Some (End 2))));
      [|vm_compute; reflexivity].
    apply (walk_front _ _ _ _ [Start 2] (Start 3) [End 3; Start 4; End 4; End 2] []
      (mkTraverse 2 (Some (Start 3)) (Some (End 2)))); [|vm_compute; reflexivity].
    apply (walk_front _ _ _ _ [] (Start 2) [Start 3; End 3; Start 4; End 4; End 2] [] (traverse 2));
      [apply walk_start|vm_compute; reflexivity]. }
  split.
  { apply (dw_next _ _ _ _ [1; 2; 3] 4 [5; 6; 7; 8] (mkTraverse 1 (Some (End 3)) (Some (End 1)))); [|vm_compute; reflexivity].
    apply (dw_next _ _ _ _ [1; 2] 3 [4; 5; 6; 7; 8] (mkTraverse 1 (Some (Start 3)) (Some (End 1)))); [|vm_compute; reflexivity].
    apply (dw_next _ _ _ _ [1] 2 [3; 4; 5; 6; 7; 8] (mkTraverse 1 (Some (Start 2)) (Some (End 1)))); [|vm_compute; reflexivity].
    apply (dw_next _ _ _ _ [] 1 [2; 3; 4; 5; 6; 7; 8] (traverse 1)); [apply dw_start|vm_compute; reflexivity]. }
  split; [intros x [<-|[<-|[<-|[]]]]; vm_compute; reflexivity|].
  split; [vm_compute; reflexivity|]. split; [vm_compute; reflexivity|]. split; [vm_compute; reflexivity|].
  split; vm_compute; reflexivity.
Qed.
