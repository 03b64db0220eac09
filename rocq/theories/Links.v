(* The structural part of a node: the link fields of struct NodeData<T>, tree.rs:29-37.
   One function per field, indexed by node handle.  Strong (Rc) and Weak links are both handles;
   Weak::upgrade is assumed to succeed (simplification: the target node is still alive, which
   holds for all nodes kept in the storage of a living Document). *)
From Coq Require Import List Bool PeanoNat.
From Verif Require Import Base.
Import ListNotations.

Record links := mkLinks {
  l_root   : nid -> option nid;  (* root: Option<WeakLink>, tree.rs:30 *)
  l_parent : nid -> option nid;  (* parent: Option<WeakLink>, tree.rs:31 *)
  l_first  : nid -> option nid;  (* first_child: Option<Link>, tree.rs:32 *)
  l_last   : nid -> option nid;  (* last_child: Option<WeakLink>, tree.rs:33 *)
  l_prev   : nid -> option nid;  (* previous_sibling: Option<WeakLink>, tree.rs:34 *)
  l_next   : nid -> option nid   (* next_sibling: Option<Link>, tree.rs:35 *)
}.

(* Field writes. *)
Definition set_root (n : nid) (v : option nid) (L : links) : links :=
  mkLinks (upd (l_root L) n v) (l_parent L) (l_first L) (l_last L) (l_prev L) (l_next L).
Definition set_parent (n : nid) (v : option nid) (L : links) : links :=
  mkLinks (l_root L) (upd (l_parent L) n v) (l_first L) (l_last L) (l_prev L) (l_next L).
Definition set_first (n : nid) (v : option nid) (L : links) : links :=
  mkLinks (l_root L) (l_parent L) (upd (l_first L) n v) (l_last L) (l_prev L) (l_next L).
Definition set_last (n : nid) (v : option nid) (L : links) : links :=
  mkLinks (l_root L) (l_parent L) (l_first L) (upd (l_last L) n v) (l_prev L) (l_next L).
Definition set_prev (n : nid) (v : option nid) (L : links) : links :=
  mkLinks (l_root L) (l_parent L) (l_first L) (l_last L) (upd (l_prev L) n v) (l_next L).
Definition set_next (n : nid) (v : option nid) (L : links) : links :=
  mkLinks (l_root L) (l_parent L) (l_first L) (l_last L) (l_prev L) (upd (l_next L) n v).

(* Node::new, tree.rs:77-87: every handle that was not yet linked has all fields None. *)
Definition no_links : links :=
  mkLinks (fun _ => None) (fun _ => None) (fun _ => None)
          (fun _ => None) (fun _ => None) (fun _ => None).
