(* Specification: when reference counting frees a node.  A node is freed when the document does not own
   it, the user does not hold it, and every node that refers to it strongly is freed.  Nodes on a cycle
   of strong references are never freed.

   The histories of this model are those of a user who keeps all handles.  This specification says what
   becomes of the nodes when the user only keeps the handles in [H]. *)
From Coq Require Import List.
From Verif Require Import Base Links Tree Data Attrs Slab NodeApi Doc History DocSpec.
Import ListNotations.

(* Document { root, storage }, document.rs:59-62. *)
Definition owned (D : dom) (n : nid) : Prop := n = droot D \/ In n (slab_iter (store D)).

Inductive freed (D : dom) (H : list nid) : nid -> Prop :=
| freed_node : forall n, ~ owned D n -> ~ In n H -> (forall m, strong D m n -> freed D H m) -> freed D H n.

(* [m] is an answer of one of the getters of [n], root() excluded. *)
Definition neighbour (D : dom) (n m : nid) : Prop :=
  parent (lk D) n = Some m \/ first_child (lk D) n = Some m \/ last_child (lk D) n = Some m \/
  next_sibling (lk D) n = Some m \/ previous_sibling (lk D) n = Some m \/
  (exists a, In a (attributes D n) /\ link_target (a_value a) = Some m) \/ In m (linked_nodes D n).
