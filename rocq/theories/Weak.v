(* The tree of /repo/src/tree.rs with Weak pointers that may be dead.

   [alive n] says whether Weak::upgrade of a pointer to [n] succeeds.  During one call of tree.rs no node is
   freed: the only counts that go down are those of the node that is moved, which the caller holds. *)
From Coq Require Import List Bool PeanoNat.
From Verif Require Import Base Links Tree Iter Data Attrs Slab NodeApi Doc History.
Import ListNotations.

(* Weak::upgrade. *)
Definition upgrade (alive : nid -> bool) (p : option nid) : option nid :=
  match p with
  | Some n => if alive n then Some n else None
  | None => None
  end.

(* Node::root, tree.rs:96-101. *)
Definition w_root (alive : nid -> bool) (L : links) (n : nid) : res nid :=
  match l_root L n with
  | Some r => match upgrade alive (Some r) with Some r => Ok r | None => Panic PUnwrap end
  | None => Ok n
  end.
(* Node::parent, tree.rs:108-110. *)
Definition w_parent (alive : nid -> bool) (L : links) (n : nid) : option nid := upgrade alive (l_parent L n).
(* Node::last_child, tree.rs:126-128. *)
Definition w_last_child (alive : nid -> bool) (L : links) (n : nid) : option nid := upgrade alive (l_last L n).
(* Node::previous_sibling, tree.rs:135-137. *)
Definition w_previous_sibling (alive : nid -> bool) (L : links) (n : nid) : option nid := upgrade alive (l_prev L n).
(* Node::children, tree.rs:192-197. *)
Definition w_children (alive : nid -> bool) (L : links) (n : nid) : children_it :=
  mkChildren (first_child L n) (w_last_child alive L n).

(* NodeData::detach, tree.rs:386-412. *)
Definition w_detach_data (alive : nid -> bool) (G : list nid) (n : nid) (L : links) : res links :=
  let parent_weak := l_parent L n in
  let previous_weak := l_prev L n in
  let next_strong := l_next L n in
  let L := set_next n None (set_prev n None (set_parent n None L)) in
  let previous_opt := upgrade alive previous_weak in
  L <- match next_strong with
       | Some nx => borrow_mut G nx (Ok (set_prev nx previous_weak L))
       | None =>
           match upgrade alive parent_weak with
           | Some p => borrow_mut G p (Ok (set_last p previous_weak L))
           | None => Ok L
           end
       end ;;
  match previous_opt with
  | Some pv => borrow_mut G pv (Ok (set_next pv next_strong L))
  | None =>
      match upgrade alive parent_weak with
      | Some p => borrow_mut G p (Ok (set_first p next_strong L))
      | None => Ok L
      end
  end.

(* Node::detach, tree.rs:229-231. *)
Definition w_detach (alive : nid -> bool) (G : list nid) (n : nid) (L : links) : res links :=
  borrow_mut G n (w_detach_data alive (n :: G) n L).

(* Node::append, tree.rs:238-266. *)
Definition w_append (alive : nid -> bool) (G : list nid) (self new_child : nid) (L : links) : res links :=
  if Nat.eqb self new_child then Panic PAssert else
  borrow_mut G self (
  borrow_mut (self :: G) new_child (
  L <- w_detach_data alive (new_child :: self :: G) new_child L ;;
  let L := set_root new_child (root_or_self L self) L in
  let L := set_parent new_child (Some self) L in
  let last_child_opt := upgrade alive (l_last L self) in
  let L := set_last self None L in
  let L := match last_child_opt with
           | Some lc => set_prev new_child (Some lc) L
           | None => L
           end in
  let L := set_last self (Some new_child) L in
  match last_child_opt with
  | Some lc =>
      borrow_mut (self :: G) lc (
      match l_next L lc with
      | Some _ => Panic PDebugAssert
      | None => Ok (set_next lc (Some new_child) L)
      end)
  | None =>
      match l_first L self with
      | Some _ => Panic PDebugAssert
      | None => Ok (set_first self (Some new_child) L)
      end
  end)).

(* Node::prepend, tree.rs:273-298. *)
Definition w_prepend (alive : nid -> bool) (G : list nid) (self new_child : nid) (L : links) : res links :=
  if Nat.eqb self new_child then Panic PAssert else
  borrow_mut G self (
  borrow_mut (self :: G) new_child (
  L <- w_detach_data alive (new_child :: self :: G) new_child L ;;
  let L := set_root new_child (root_or_self L self) L in
  let L := set_parent new_child (Some self) L in
  let first_child_opt := l_first L self in
  let L := set_first self None L in
  L <- match first_child_opt with
       | Some fc =>
           borrow_mut (new_child :: self :: G) fc (
           match l_prev L fc with
           | Some _ => Panic PDebugAssert
           | None =>
               let L := set_prev fc (Some new_child) L in
               Ok (set_next new_child (Some fc) L)
           end)
       | None =>
           match l_first L self with
           | Some _ => Panic PDebugAssert
           | None => Ok (set_last self (Some new_child) L)
           end
       end ;;
  Ok (set_first self (Some new_child) L))).

(* Node::insert_after, tree.rs:305-338.  The debug assertion also unwraps a weak pointer. *)
Definition w_insert_after (alive : nid -> bool) (G : list nid) (self new_sibling : nid) (L : links) : res links :=
  if Nat.eqb self new_sibling then Panic PAssert else
  borrow_mut G self (
  borrow_mut (self :: G) new_sibling (
  L <- w_detach_data alive (new_sibling :: self :: G) new_sibling L ;;
  let L := set_root new_sibling (l_root L self) L in
  let L := set_parent new_sibling (l_parent L self) L in
  let L := set_prev new_sibling (Some self) L in
  let next_opt := l_next L self in
  let L := set_next self None L in
  L <- match next_opt with
       | Some nx =>
           borrow_mut (new_sibling :: self :: G) nx (
           match upgrade alive (l_prev L nx) with
           | None => Panic PDebugAssert
           | Some w =>
               if Nat.eqb w self then
                 let L := set_prev nx (Some new_sibling) L in
                 Ok (set_next new_sibling (Some nx) L)
               else Panic PDebugAssert
           end)
       | None =>
           match upgrade alive (l_parent L self) with
           | Some p =>
               borrow_mut (new_sibling :: self :: G) p (
               Ok (set_last p (Some new_sibling) L))
           | None => Ok L
           end
       end ;;
  Ok (set_next self (Some new_sibling) L))).

(* Node::insert_before, tree.rs:345-381. *)
Definition w_insert_before (alive : nid -> bool) (G : list nid) (self new_sibling : nid) (L : links) : res links :=
  if Nat.eqb self new_sibling then Panic PAssert else
  borrow_mut G self (
  borrow_mut (self :: G) new_sibling (
  L <- w_detach_data alive (new_sibling :: self :: G) new_sibling L ;;
  let L := set_root new_sibling (l_root L self) L in
  let L := set_parent new_sibling (l_parent L self) L in
  let L := set_next new_sibling (Some self) L in
  let previous_opt := upgrade alive (l_prev L self) in
  let L := set_prev self None L in
  let L := match previous_opt with
           | Some pv => set_prev new_sibling (Some pv) L
           | None => L
           end in
  let L := set_prev self (Some new_sibling) L in
  match previous_opt with
  | Some pv =>
      borrow_mut (self :: G) pv (
      match l_next L pv with
      | None => Panic PDebugAssert
      | Some rc =>
          if Nat.eqb rc self then Ok (set_next pv (Some new_sibling) L)
          else Panic PDebugAssert
      end)
  | None =>
      match upgrade alive (l_parent L self) with
      | Some p =>
          borrow_mut (self :: G) p (Ok (set_first p (Some new_sibling) L))
      | None => Ok L
      end
  end)).

(* The functions of document.rs that move nodes.  [w D n] says whether [n] is alive when the document is [D]. *)
Section Calls.
Variable w : dom -> nid -> bool.

(* Document::_remove, document.rs:240-295. *)
Definition w_remove_finish (node : nid) (D : dom) : res dom :=
  L <- w_detach (w D) [] node (lk D) ;;
  let D := with_lk L D in
  let key := storage_key D node in
  let D := modify node (set_key None) D in
  match key with
  | Some k => r <- slab_remove (store D) k ;; Ok (with_store (snd r) D)
  | None => Ok D
  end.
Fixpoint w_remove_rec (fuel : nat) (node : nid) (D : dom) : res dom :=
  match fuel with
  | O => Diverge
  | S f =>
      D <- remove_links node D ;;
      D <- for_children lk f (w_remove_rec f) (w_children (w D) (lk D) node) D ;;
      w_remove_finish node D
  end.
(* Document::remove_node, document.rs:235-238. *)
Definition w_remove_node (node : nid) (D : dom) : res dom := w_remove_rec (enough D) node D.

(* Document::_drain, document.rs:311-328; next_sibling and first_child are strong. *)
Fixpoint w_drain_loop (fuel : nat) (f : dom -> nid -> bool) (node : option nid) (s : dom * nat) : res (dom * nat) :=
  match fuel with
  | O => Diverge
  | S fl =>
      match node with
      | None => Ok s
      | Some n =>
          let D := fst s in
          if f D n then
            let nx := next_sibling (lk D) n in
            D <- w_remove_node n D ;;
            w_drain_loop fl f nx (D, S (snd s))
          else
            s <- (if has_children (lk D) n
                  then w_drain_loop fl f (first_child (lk D) n) s
                  else Ok s) ;;
            w_drain_loop fl f (next_sibling (lk (fst s)) n) s
      end
  end.
(* Document::drain, document.rs:303-309. *)
Definition w_drain (root : nid) (f : dom -> nid -> bool) (D : dom) : res (dom * nat) :=
  w_drain_loop (S (enough D)) f (first_child (lk D) root) (D, 0).

(* Document::_make_deep_copy, document.rs:359-368. *)
Fixpoint w_make_deep_copy (fuel : nat) (parent_ node : nid) (D : dom) : res dom :=
  match fuel with
  | O => Diverge
  | S f =>
      for_children lk f
        (fun child D =>
           r <- copy_node child D ;;
           let new_node := fst r in
           L <- w_append (w (snd r)) [] parent_ new_node (lk (snd r)) ;;
           let D := with_lk L (snd r) in
           if has_children (lk D) child then w_make_deep_copy f new_node child D else Ok D)
        (w_children (w D) (lk D) node) D
  end.
(* Document::copy_node_deep, document.rs:353-357. *)
Definition w_copy_node_deep (node : nid) (D : dom) : res (nid * dom) :=
  let fuel := enough D in
  r <- copy_node node D ;;
  D <- w_make_deep_copy fuel (fst r) node (snd r) ;;
  Ok (fst r, D).

(* One call, History.v; the other calls use no weak pointer. *)
Definition w_step (o : op) (D : dom) : res dom :=
  match o with
  | ORemoveNode n => w_remove_node n D
  | ODrain root f => r <- w_drain root f D ;; Ok (fst r)
  | OCopyNodeDeep n => r <- w_copy_node_deep n D ;; Ok (snd r)
  | ODetach n => on_links (w_detach (w D) [] n) D
  | OAppend p n => on_links (w_append (w D) [] p n) D
  | OPrepend p n => on_links (w_prepend (w D) [] p n) D
  | OInsertAfter a n => on_links (w_insert_after (w D) [] a n) D
  | OInsertBefore a n => on_links (w_insert_before (w D) [] a n) D
  | o => step o D
  end.
End Calls.
