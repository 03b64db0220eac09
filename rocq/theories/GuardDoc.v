(* The calls of Document while the user holds guards: the functions of Doc.v with each borrow written out. *)
From Coq Require Import List Bool PeanoNat NArith.
From Verif Require Import Base Ids Links Tree Iter Data Attrs Slab NodeApi Doc Guards.
Import ListNotations.

(* Node::children, tree.rs:192-197: first_child() and last_child() borrow the node. *)
Definition g_children (g : guards) (n : nid) (L : links) : res children_it := reading g n (Ok (children L n)).
(* Children::finished, tree.rs:468-473: next_sibling() borrows the last node. *)
Definition g_children_finished (g : guards) (L : links) (it : children_it) : res bool :=
  match c_back it with
  | Some b => reading g b (Ok (onid_eqb (next_sibling L b) (c_next it)))
  | None => Ok true
  end.
(* Children::next, tree.rs:482-494: next_sibling() borrows the yielded node. *)
Definition g_children_next (g : guards) (L : links) (it : children_it) : res (option nid * children_it) :=
  fin <- g_children_finished g L it ;;
  if (fin : bool) then Ok (None, it)
  else match c_next it with
       | Some n => reading g n (Ok (Some n, mkChildren (next_sibling L n) (c_back it)))
       | None => Ok (None, mkChildren None (c_back it))
       end.
(* A `for child in node.children()` loop. *)
Fixpoint g_for_children {A} (g : guards) (getL : A -> links) (fuel : nat) (body : nid -> A -> res A)
  (it : children_it) (s : A) : res A :=
  match fuel with
  | O => Diverge
  | S f =>
      r <- g_children_next g (getL s) it ;;
      match r with
      | (Some c, it') => s <- body c s ;; g_for_children g getL f body it' s
      | (None, _) => Ok s
      end
  end.

(* for name in ids { node.remove_attribute(name) }, document.rs:253-255 and 275-277. *)
Fixpoint g_remove_all (g : guards) (self : nid) (names : list aname) (D : dom) : res dom :=
  match names with
  | [] => Ok D
  | x :: t => D <- g_remove_attribute g self x D ;; g_remove_all g self t D
  end.
(* The loop over linked nodes, document.rs:259-278: linked.attributes() is dropped after its loop. *)
Fixpoint g_unlink_users (g : guards) (node : nid) (users : list nid) (D : dom) : res dom :=
  match users with
  | [] => Ok D
  | u :: t =>
      reading g u (
      D <- g_remove_all g u (svg_link_names_to node (attributes D u)) D ;;
      g_unlink_users g node t D)
  end.
(* Document::_remove up to the loop over the children, document.rs:241-278: node.attributes() is dropped
   after its loop, node.linked_nodes() is copied. *)
Definition g_remove_links (g : guards) (node : nid) (D : dom) : res dom :=
  reading g node (
  D <- g_remove_all g node (svg_link_names (attributes D node)) D ;;
  reading g node (g_unlink_users g node (linked_nodes D node) D)).
(* Document::_remove, after the loop over the children, document.rs:286-294. *)
Definition g_remove_finish (g : guards) (node : nid) (D : dom) : res dom :=
  D <- g_detach g node D ;;
  writing g node (
  let key := storage_key D node in
  let D := modify node (set_key None) D in
  match key with
  | Some k => r <- slab_remove (store D) k ;; Ok (with_store (snd r) D)
  | None => Ok D
  end).
(* Document::_remove, document.rs:240-295. *)
Fixpoint g_remove_rec (fuel : nat) (g : guards) (node : nid) (D : dom) : res dom :=
  match fuel with
  | O => Diverge
  | S f =>
      D <- g_remove_links g node D ;;
      it <- g_children g node (lk D) ;;
      D <- g_for_children g lk f (g_remove_rec f g) it D ;;
      g_remove_finish g node D
  end.
(* Document::remove_node, document.rs:235-238. *)
Definition g_remove_node (g : guards) (node : nid) (D : dom) : res dom := g_remove_rec (enough D) g node D.

(* Document::_drain, document.rs:311-328.  The predicate does not panic. *)
Fixpoint g_drain_loop (fuel : nat) (g : guards) (f : dom -> nid -> bool) (node : option nid) (s : dom * nat)
  : res (dom * nat) :=
  match fuel with
  | O => Diverge
  | S fl =>
      match node with
      | None => Ok s
      | Some n =>
          let D := fst s in
          if f D n then
            reading g n (
            let nx := next_sibling (lk D) n in
            D <- g_remove_node g n D ;;
            g_drain_loop fl g f nx (D, S (snd s)))
          else
            s <- reading g n
                  (if has_children (lk D) n
                   then reading g n (g_drain_loop fl g f (first_child (lk D) n) s)
                   else Ok s) ;;
            reading g n (g_drain_loop fl g f (next_sibling (lk (fst s)) n) s)
      end
  end.
(* Document::drain, document.rs:303-309. *)
Definition g_drain (g : guards) (root : nid) (f : dom -> nid -> bool) (D : dom) : res (dom * nat) :=
  reading g root (g_drain_loop (S (enough D)) g f (first_child (lk D) root) (D, 0)).

(* Document::_make_deep_copy, document.rs:359-368. *)
Fixpoint g_make_deep_copy (fuel : nat) (g : guards) (parent_ node : nid) (D : dom) : res dom :=
  match fuel with
  | O => Diverge
  | S f =>
      it <- g_children g node (lk D) ;;
      g_for_children g lk f
        (fun child D =>
           r <- g_copy_node g child D ;;
           let new_node := fst r in
           D <- g_append g parent_ new_node (snd r) ;;
           reading g child (if has_children (lk D) child then g_make_deep_copy f g new_node child D else Ok D))
        it D
  end.
(* Document::copy_node_deep, document.rs:353-357. *)
Definition g_copy_node_deep (g : guards) (node : nid) (D : dom) : res (nid * dom) :=
  let fuel := enough D in
  r <- g_copy_node g node D ;;
  D <- g_make_deep_copy fuel g (fst r) node (snd r) ;;
  Ok (fst r, D).

(* Drop for Document, document.rs:371-379. *)
Fixpoint g_drop_loop (g : guards) (l : list nid) (D : dom) : res dom :=
  match l with
  | [] => Ok D
  | n :: t =>
      writing g n (
      let D := modify n (set_attrs (attrs_clear (attributes D n))) D in
      let D := modify n (set_linked []) D in
      D <- g_detach g n D ;;
      g_drop_loop g t D)
  end.
Definition g_drop_document (g : guards) (D : dom) : res dom := g_drop_loop g (slab_iter (store D)) D.
