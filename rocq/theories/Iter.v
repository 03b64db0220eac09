(* Model of the iterators of /repo/src/tree.rs (414-674), as state machines over the links. *)
From Coq Require Import List Bool PeanoNat.
From Verif Require Import Base Links Tree.
Import ListNotations.

(* impl_node_iterator!, tree.rs:427-446: the state is the node to be yielded. *)
Definition simple_next (step : nid -> option nid) (s : option nid) : option nid * option nid :=
  match s with
  | Some n => (Some n, step n)
  | None => (None, None)
  end.

(* Collecting an iterator; fuel bounds the number of calls of next. *)
Fixpoint simple_collect (fuel : nat) (step : nid -> option nid) (s : option nid)
  : res (list nid) :=
  match fuel with
  | O => Diverge
  | S f =>
      match simple_next step s with
      | (Some n, s') => l <- simple_collect f step s' ;; Ok (n :: l)
      | (None, _) => Ok []
      end
  end.

(* Ancestors, tree.rs:449-450 and Node::ancestors, tree.rs:169-171. *)
Definition ancestors (fuel : nat) (L : links) (n : nid) : res (list nid) :=
  simple_collect fuel (parent L) (Some n).
(* PrecedingSiblings, tree.rs:453-454 and Node::preceding_siblings, tree.rs:176-178. *)
Definition preceding_siblings (fuel : nat) (L : links) (n : nid) : res (list nid) :=
  simple_collect fuel (previous_sibling L) (Some n).
(* FollowingSiblings, tree.rs:457-458 and Node::following_siblings, tree.rs:183-185. *)
Definition following_siblings (fuel : nat) (L : links) (n : nid) : res (list nid) :=
  simple_collect fuel (next_sibling L) (Some n).

(* struct Children, tree.rs:461-464. *)
Record children_it := mkChildren { c_next : option nid; c_back : option nid }.

(* Node::children, tree.rs:192-197. *)
Definition children (L : links) (n : nid) : children_it :=
  mkChildren (first_child L n) (last_child L n).

(* Children::finished, tree.rs:468-473. *)
Definition children_finished (L : links) (it : children_it) : bool :=
  match c_back it with
  | Some b => onid_eqb (next_sibling L b) (c_next it)
  | None => true
  end.

(* Children::next, tree.rs:482-494. *)
Definition children_next (L : links) (it : children_it) : option nid * children_it :=
  if children_finished L it then (None, it)
  else match c_next it with
       | Some n => (Some n, mkChildren (next_sibling L n) (c_back it))
       | None => (None, mkChildren None (c_back it))
       end.

(* Children::next_back, tree.rs:501-513. *)
Definition children_next_back (L : links) (it : children_it) : option nid * children_it :=
  if children_finished L it then (None, it)
  else match c_back it with
       | Some n => (Some n, mkChildren (c_next it) (previous_sibling L n))
       | None => (None, mkChildren (c_next it) None)
       end.

(* NodeEdge, tree.rs:539-550. *)
Inductive edge := Start (n : nid) | End (n : nid).

(* PartialEq for NodeEdge, tree.rs:553-561. *)
Definition edge_eqb (a b : edge) : bool :=
  match a, b with
  | Start x, Start y => Nat.eqb x y
  | End x, End y => Nat.eqb x y
  | _, _ => false
  end.
Definition oedge_eqb (a b : option edge) : bool :=
  match a, b with
  | None, None => true
  | Some x, Some y => edge_eqb x y
  | _, _ => false
  end.

(* NodeEdge::next_item, tree.rs:563-588. *)
Definition next_item (L : links) (root : nid) (e : edge) : option edge :=
  match e with
  | Start n =>
      match first_child L n with
      | Some c => Some (Start c)
      | None => Some (End n)
      end
  | End n =>
      if Nat.eqb n root then None
      else match next_sibling L n with
           | Some s => Some (Start s)
           | None =>
               match parent L n with
               | Some p => Some (End p)
               | None => None
               end
           end
  end.

(* NodeEdge::previous_item, tree.rs:590-615. *)
Definition previous_item (L : links) (root : nid) (e : edge) : option edge :=
  match e with
  | End n =>
      match last_child L n with
      | Some c => Some (End c)
      | None => Some (Start n)
      end
  | Start n =>
      if Nat.eqb n root then None
      else match previous_sibling L n with
           | Some s => Some (End s)
           | None =>
               match parent L n with
               | Some p => Some (Start p)
               | None => None
               end
           end
  end.

(* struct Traverse, tree.rs:620-624. *)
Record traverse_it := mkTraverse { t_root : nid; t_next : option edge; t_back : option edge }.

(* Node::traverse, tree.rs:215-221. *)
Definition traverse (n : nid) : traverse_it := mkTraverse n (Some (Start n)) (Some (End n)).

(* Traverse::finished, tree.rs:628-633. *)
Definition traverse_finished (L : links) (it : traverse_it) : bool :=
  match t_back it with
  | Some b => oedge_eqb (next_item L (t_root it) b) (t_next it)
  | None => true
  end.

(* Traverse::next, tree.rs:642-654. *)
Definition traverse_next (L : links) (it : traverse_it) : option edge * traverse_it :=
  if traverse_finished L it then (None, it)
  else match t_next it with
       | Some e => (Some e, mkTraverse (t_root it) (next_item L (t_root it) e) (t_back it))
       | None => (None, mkTraverse (t_root it) None (t_back it))
       end.

(* Traverse::next_back, tree.rs:661-673. *)
Definition traverse_next_back (L : links) (it : traverse_it) : option edge * traverse_it :=
  if traverse_finished L it then (None, it)
  else match t_back it with
       | Some e => (Some e, mkTraverse (t_root it) (t_next it) (previous_item L (t_root it) e))
       | None => (None, mkTraverse (t_root it) (t_next it) None)
       end.

(* Consuming traverse() in a loop while the tree does not change. *)
Fixpoint traverse_collect (fuel : nat) (L : links) (it : traverse_it) : res (list edge) :=
  match fuel with
  | O => Diverge
  | S f =>
      match traverse_next L it with
      | (Some e, it') => l <- traverse_collect f L it' ;; Ok (e :: l)
      | (None, _) => Ok []
      end
  end.

(* Descendants::next, tree.rs:526-534: skip End edges.  Fuel bounds the inner loop. *)
Fixpoint descendants_next (fuel : nat) (L : links) (it : traverse_it)
  : res (option nid * traverse_it) :=
  match fuel with
  | O => Diverge
  | S f =>
      match traverse_next L it with
      | (Some (Start n), it') => Ok (Some n, it')
      | (Some (End _), it') => descendants_next f L it'
      | (None, it') => Ok (None, it')
      end
  end.

(* Collecting descendants(), tree.rs:210-212. *)
Fixpoint descendants_collect (fuel : nat) (L : links) (it : traverse_it) : res (list nid) :=
  match fuel with
  | O => Diverge
  | S f =>
      r <- descendants_next fuel L it ;;
      match r with
      | (Some n, it') => l <- descendants_collect f L it' ;; Ok (n :: l)
      | (None, _) => Ok []
      end
  end.

Definition descendants (fuel : nat) (L : links) (n : nid) : res (list nid) :=
  descendants_collect fuel L (traverse n).
