(* The state a panic of remove_node, drain or copy_node_deep leaves behind: the functions of GuardDoc.v with the
   state at the end of the call also when it panics.  Simplification as in Unwind.v. *)
From Coq Require Import List Bool PeanoNat NArith.
From Verif Require Import Base Ids Links Tree Iter Data Attrs Slab NodeApi Doc Guards GuardDoc Unwind.
Import ListNotations.

(* The state at the end of a call and how it ended; None: it has not ended within the fuel. *)
Definition run (A : Type) : Type := option (dom * fate A).
Definition then_ {A B} (o : run A) (k : A -> dom -> run B) : run B :=
  match o with
  | Some (D, Gives a) => k a D
  | Some (D, Panics p) => Some (D, Panics p)
  | None => None
  end.
(* A call that writes nothing. *)
Definition asked {A} (r : res A) (D : dom) : run A :=
  match r with
  | Ok a => Some (D, Gives a)
  | Panic p => Some (D, Panics p)
  | Diverge => None
  end.
(* A call on the tree. *)
Definition moved (D : dom) (o : links * fate unit) : run unit := Some (with_lk (fst o) D, snd o).
(* What is seen by a user who does not catch the panic. *)
Definition seen {A} (o : run A) : res (dom * A) :=
  match o with
  | Some o => uncaught o
  | None => Diverge
  end.
Definition seen_ (o : run unit) : res dom :=
  match o with
  | Some o => uncaught_ o
  | None => Diverge
  end.

(* A `for child in node.children()` loop, see g_for_children. *)
Fixpoint u_for_children (g : guards) (fuel : nat) (body : nid -> dom -> run unit) (it : children_it) (D : dom)
  : run unit :=
  match fuel with
  | O => None
  | S f =>
      then_ (asked (g_children_next g (lk D) it) D) (fun r D =>
      match r with
      | (Some c, it') => then_ (body c D) (fun _ D => u_for_children g f body it' D)
      | (None, _) => Some (D, Gives tt)
      end)
  end.

(* for name in ids { node.remove_attribute(name) }, document.rs:253-255 and 275-277. *)
Fixpoint u_remove_all (g : guards) (self : nid) (names : list aname) (D : dom) : run unit :=
  match names with
  | [] => Some (D, Gives tt)
  | x :: t => then_ (Some (u_remove_attribute g self x D)) (fun _ D => u_remove_all g self t D)
  end.
(* The loop over linked nodes, document.rs:259-278. *)
Fixpoint u_unlink_users (g : guards) (node : nid) (users : list nid) (D : dom) : run unit :=
  match users with
  | [] => Some (D, Gives tt)
  | u :: t =>
      then_ (asked (reading g u (Ok tt)) D) (fun _ D =>
      then_ (u_remove_all g u (svg_link_names_to node (attributes D u)) D) (fun _ D =>
      u_unlink_users g node t D))
  end.
(* Document::_remove up to the loop over the children, document.rs:241-278. *)
Definition u_remove_links (g : guards) (node : nid) (D : dom) : run unit :=
  then_ (asked (reading g node (Ok tt)) D) (fun _ D =>
  then_ (u_remove_all g node (svg_link_names (attributes D node)) D) (fun _ D =>
  then_ (asked (reading g node (Ok tt)) D) (fun _ D =>
  u_unlink_users g node (linked_nodes D node) D))).
(* Document::_remove, after the loop over the children, document.rs:286-294: the key is taken out of the node
   before slab::Slab::remove panics. *)
Definition u_remove_finish (g : guards) (node : nid) (D : dom) : run unit :=
  then_ (moved D (u_detach (all_guards g) node (lk D))) (fun _ D =>
  then_ (asked (writing g node (Ok tt)) D) (fun _ D =>
  let key := storage_key D node in
  let D := modify node (set_key None) D in
  match key with
  | Some k => then_ (asked (slab_remove (store D) k) D) (fun r D => Some (with_store (snd r) D, Gives tt))
  | None => Some (D, Gives tt)
  end)).
(* Document::_remove, document.rs:240-295. *)
Fixpoint u_remove_rec (fuel : nat) (g : guards) (node : nid) (D : dom) : run unit :=
  match fuel with
  | O => None
  | S f =>
      then_ (u_remove_links g node D) (fun _ D =>
      then_ (asked (g_children g node (lk D)) D) (fun it D =>
      then_ (u_for_children g f (u_remove_rec f g) it D) (fun _ D =>
      u_remove_finish g node D)))
  end.
(* Document::remove_node, document.rs:235-238. *)
Definition u_remove_node (g : guards) (node : nid) (D : dom) : run unit := u_remove_rec (enough D) g node D.

(* Document::_drain, document.rs:311-328.  The predicate does not panic. *)
Fixpoint u_drain_loop (fuel : nat) (g : guards) (f : dom -> nid -> bool) (node : option nid) (count : nat) (D : dom)
  : run nat :=
  match fuel with
  | O => None
  | S fl =>
      match node with
      | None => Some (D, Gives count)
      | Some n =>
          if f D n then
            then_ (asked (reading g n (Ok tt)) D) (fun _ D =>
            let nx := next_sibling (lk D) n in
            then_ (u_remove_node g n D) (fun _ D =>
            u_drain_loop fl g f nx (S count) D))
          else
            then_ (then_ (asked (reading g n (Ok tt)) D) (fun _ D =>
                   if has_children (lk D) n
                   then then_ (asked (reading g n (Ok tt)) D) (fun _ D =>
                        u_drain_loop fl g f (first_child (lk D) n) count D)
                   else Some (D, Gives count))) (fun count D =>
            then_ (asked (reading g n (Ok tt)) D) (fun _ D =>
            u_drain_loop fl g f (next_sibling (lk D) n) count D))
      end
  end.
(* Document::drain, document.rs:303-309. *)
Definition u_drain (g : guards) (root : nid) (f : dom -> nid -> bool) (D : dom) : run nat :=
  then_ (asked (reading g root (Ok tt)) D) (fun _ D =>
  u_drain_loop (S (enough D)) g f (first_child (lk D) root) 0 D).

(* Document::_make_deep_copy, document.rs:359-368. *)
Fixpoint u_make_deep_copy (fuel : nat) (g : guards) (parent_ node : nid) (D : dom) : run unit :=
  match fuel with
  | O => None
  | S f =>
      then_ (asked (g_children g node (lk D)) D) (fun it D =>
      u_for_children g f
        (fun child D =>
           then_ (Some (u_copy_node g child D)) (fun new_node D =>
           then_ (moved D (u_append (all_guards g) parent_ new_node (lk D))) (fun _ D =>
           then_ (asked (reading g child (Ok tt)) D) (fun _ D =>
           if has_children (lk D) child then u_make_deep_copy f g new_node child D else Some (D, Gives tt)))))
        it D)
  end.
(* Document::copy_node_deep, document.rs:353-357. *)
Definition u_copy_node_deep (g : guards) (node : nid) (D : dom) : run nid :=
  let fuel := enough D in
  then_ (Some (u_copy_node g node D)) (fun new_node D =>
  then_ (u_make_deep_copy fuel g new_node node D) (fun _ D =>
  Some (D, Gives new_node))).
