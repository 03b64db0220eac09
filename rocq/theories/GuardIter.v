(* The iterators of tree.rs while the user holds guards: the functions of Iter.v with each borrow written out. *)
From Coq Require Import List Bool PeanoNat.
From Verif Require Import Base Links Tree Iter Data Attrs Slab NodeApi Guards GuardDoc.
Import ListNotations.

(* impl_node_iterator!, tree.rs:427-446: parent(), previous_sibling() and next_sibling() borrow the node. *)
Definition g_simple_next (g : guards) (step : nid -> option nid) (s : option nid)
  : res (option nid * option nid) :=
  match s with
  | Some n => reading g n (Ok (Some n, step n))
  | None => Ok (None, None)
  end.
Fixpoint g_simple_collect (fuel : nat) (g : guards) (step : nid -> option nid) (s : option nid)
  : res (list nid) :=
  match fuel with
  | O => Diverge
  | S f =>
      r <- g_simple_next g step s ;;
      match r with
      | (Some n, s') => l <- g_simple_collect f g step s' ;; Ok (n :: l)
      | (None, _) => Ok []
      end
  end.
(* Node::ancestors, preceding_siblings and following_siblings, tree.rs:169-185: they do not borrow. *)
Definition g_ancestors (fuel : nat) (g : guards) (L : links) (n : nid) : res (list nid) :=
  g_simple_collect fuel g (parent L) (Some n).
Definition g_preceding_siblings (fuel : nat) (g : guards) (L : links) (n : nid) : res (list nid) :=
  g_simple_collect fuel g (previous_sibling L) (Some n).
Definition g_following_siblings (fuel : nat) (g : guards) (L : links) (n : nid) : res (list nid) :=
  g_simple_collect fuel g (next_sibling L) (Some n).

(* Children::next_back, tree.rs:501-513; Children::next is in GuardDoc.v. *)
Definition g_children_next_back (g : guards) (L : links) (it : children_it) : res (option nid * children_it) :=
  fin <- g_children_finished g L it ;;
  if (fin : bool) then Ok (None, it)
  else match c_back it with
       | Some n => reading g n (Ok (Some n, mkChildren (c_next it) (previous_sibling L n)))
       | None => Ok (None, mkChildren (c_next it) None)
       end.
(* Consuming children(), tree.rs:192-197, in a loop. *)
Fixpoint g_children_collect (fuel : nat) (g : guards) (L : links) (it : children_it) : res (list nid) :=
  match fuel with
  | O => Diverge
  | S f =>
      r <- g_children_next g L it ;;
      match r with
      | (Some n, it') => l <- g_children_collect f g L it' ;; Ok (n :: l)
      | (None, _) => Ok []
      end
  end.
Definition g_children_list (fuel : nat) (g : guards) (L : links) (n : nid) : res (list nid) :=
  it <- g_children g n L ;; g_children_collect fuel g L it.

(* NodeEdge::next_item, tree.rs:563-588: comparing with the root does not borrow. *)
Definition g_next_item (g : guards) (L : links) (root : nid) (e : edge) : res (option edge) :=
  match e with
  | Start n =>
      reading g n (
      match first_child L n with
      | Some c => Ok (Some (Start c))
      | None => Ok (Some (End n))
      end)
  | End n =>
      if Nat.eqb n root then Ok None
      else
        reading g n (
        match next_sibling L n with
        | Some s => Ok (Some (Start s))
        | None =>
            reading g n (
            match parent L n with
            | Some p => Ok (Some (End p))
            | None => Ok None
            end)
        end)
  end.
(* NodeEdge::previous_item, tree.rs:590-615. *)
Definition g_previous_item (g : guards) (L : links) (root : nid) (e : edge) : res (option edge) :=
  match e with
  | End n =>
      reading g n (
      match last_child L n with
      | Some c => Ok (Some (End c))
      | None => Ok (Some (Start n))
      end)
  | Start n =>
      if Nat.eqb n root then Ok None
      else
        reading g n (
        match previous_sibling L n with
        | Some s => Ok (Some (End s))
        | None =>
            reading g n (
            match parent L n with
            | Some p => Ok (Some (Start p))
            | None => Ok None
            end)
        end)
  end.

(* Traverse::finished, tree.rs:628-633. *)
Definition g_traverse_finished (g : guards) (L : links) (it : traverse_it) : res bool :=
  match t_back it with
  | Some b => o <- g_next_item g L (t_root it) b ;; Ok (oedge_eqb o (t_next it))
  | None => Ok true
  end.
(* Traverse::next, tree.rs:642-654. *)
Definition g_traverse_next (g : guards) (L : links) (it : traverse_it) : res (option edge * traverse_it) :=
  fin <- g_traverse_finished g L it ;;
  if (fin : bool) then Ok (None, it)
  else match t_next it with
       | Some e => o <- g_next_item g L (t_root it) e ;; Ok (Some e, mkTraverse (t_root it) o (t_back it))
       | None => Ok (None, mkTraverse (t_root it) None (t_back it))
       end.
(* Traverse::next_back, tree.rs:661-673. *)
Definition g_traverse_next_back (g : guards) (L : links) (it : traverse_it) : res (option edge * traverse_it) :=
  fin <- g_traverse_finished g L it ;;
  if (fin : bool) then Ok (None, it)
  else match t_back it with
       | Some e => o <- g_previous_item g L (t_root it) e ;; Ok (Some e, mkTraverse (t_root it) (t_next it) o)
       | None => Ok (None, mkTraverse (t_root it) (t_next it) None)
       end.
(* Consuming traverse(), tree.rs:215-221, in a loop.  traverse() itself does not borrow. *)
Fixpoint g_traverse_collect (fuel : nat) (g : guards) (L : links) (it : traverse_it) : res (list edge) :=
  match fuel with
  | O => Diverge
  | S f =>
      r <- g_traverse_next g L it ;;
      match r with
      | (Some e, it') => l <- g_traverse_collect f g L it' ;; Ok (e :: l)
      | (None, _) => Ok []
      end
  end.

(* Descendants::next, tree.rs:526-534. *)
Fixpoint g_descendants_next (fuel : nat) (g : guards) (L : links) (it : traverse_it)
  : res (option nid * traverse_it) :=
  match fuel with
  | O => Diverge
  | S f =>
      r <- g_traverse_next g L it ;;
      match r with
      | (Some (Start n), it') => Ok (Some n, it')
      | (Some (End _), it') => g_descendants_next f g L it'
      | (None, it') => Ok (None, it')
      end
  end.
(* Collecting descendants(), tree.rs:210-212. *)
Fixpoint g_descendants_collect (fuel : nat) (g : guards) (L : links) (it : traverse_it) : res (list nid) :=
  match fuel with
  | O => Diverge
  | S f =>
      r <- g_descendants_next fuel g L it ;;
      match r with
      | (Some n, it') => l <- g_descendants_collect f g L it' ;; Ok (n :: l)
      | (None, _) => Ok []
      end
  end.
Definition g_descendants (fuel : nat) (g : guards) (L : links) (n : nid) : res (list nid) :=
  g_descendants_collect fuel g L (traverse n).
