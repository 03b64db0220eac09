(* Specification: what is still alive after the document is dropped. *)
From Coq Require Import List Bool PeanoNat.
From Verif Require Import Base Ids Links Tree Data Attrs NodeApi Doc ForestSpec.
Import ListNotations.

(* [y] comes after [x] in the list. *)
Definition comes_after (x y : nid) (l : list nid) : Prop := exists l1 l2 l3, l = l1 ++ x :: l2 ++ y :: l3.

(* Drop for Document empties the nodes that are stored.  What remains are the references of the nodes
   that were removed before, and the places of removed nodes among children and siblings. *)
Inductive remains (D : dom) (F : forest) : nid -> nid -> Prop :=
| rm_link : forall a b x, is_detached D a = true -> In x (attributes D a) -> link_target (a_value x) = Some b ->
    remains D F a b
| rm_user : forall a b, is_detached D a = true -> In b (linked_nodes D a) -> remains D F a b
| rm_child : forall a b, is_detached D b = true -> parent_of F b = Some a -> remains D F a b
| rm_next : forall a b, is_detached D a = true -> is_detached D b = true -> comes_after a b (siblings_of F a) ->
    remains D F a b.

(* A chain of one or more of them. *)
Inductive remains_chain (D : dom) (F : forest) : nid -> nid -> Prop :=
| rc_one  : forall a b, remains D F a b -> remains_chain D F a b
| rc_more : forall a b c, remains D F a b -> remains_chain D F b c -> remains_chain D F a c.

(* [x] is stored in a slot before the slot [k]. *)
Definition stored_before (D : dom) (k : nat) (x : nid) : Prop := exists j, storage_key D x = Some j /\ j < k.

(* A stored node that is its own parent and that is, at its turn, the first or the last of what is left
   of its siblings. *)
Definition drop_blocked (D : dom) (F : forest) (n : nid) : Prop :=
  parent_of F n = Some n /\ exists k, storage_key D n = Some k /\
  ((forall x, comes_after n x (siblings_of F n) -> stored_before D k x) \/
   (forall x, comes_after x n (siblings_of F n) -> stored_before D k x)).
