(* Specification: the document after a panic of remove_node, drain or copy_node_deep that was caught. *)
From Coq Require Import List PeanoNat.
From Verif Require Import Base Links Tree ForestSpec TreeSpec Data Attrs NodeApi AttrSpec Doc History Guards GuardSpec Unwind UnwindSpec.
Import ListNotations.

(* [D'] has the nodes of [D], and nothing but attributes, users and places in the tree has been taken away. *)
Record only_less (D D' : dom) : Prop := {
  ol_fresh : fresh D' = fresh D;
  ol_root  : droot D' = droot D;
  ol_type  : forall x, node_type D' x = node_type D x;
  ol_tag   : forall x, tag_name D' x = tag_name D x;
  ol_id    : forall x, id_of D' x = id_of D x;
  ol_text  : forall x, text_of D' x = text_of D x;
  ol_attrs : forall x, incl (attributes D' x) (attributes D x);
  ol_users : forall x, incl (linked_nodes D' x) (linked_nodes D x)
}.

(* The call stopped in a state that other calls lead to; or in remove_attribute of an element the user reads,
   so that a target has lost the user but the attribute is still there; or in detach of a node one of whose
   neighbours has a guard, so that the links do not fit together. *)
Definition half_removed (g : guards) (D D' : dom) : Prop :=
  reachable D' /\ only_less D D' \/
  exists D1 x q, reachable D1 /\ only_less D D1 /\ exists_node D1 x /\
    ((exists name, torn_remove g D1 x name /\ u_remove_attribute g x name D1 = (D', Panics q) /\ ~ mirrored D') \/
     (~ held g x /\ (exists L, u_detach (all_guards g) x (lk D1) = (L, Panics q) /\ D' = with_lk L D1) /\ ~ consistent (lk D'))).

(* The nodes of [D] are in [D'] as they were, but for their users. *)
Definition kept (D D' : dom) : Prop :=
  fresh D <= fresh D' /\ droot D' = droot D /\
  forall x, exists_node D x ->
    node_type D' x = node_type D x /\ tag_name D' x = tag_name D x /\ id_of D' x = id_of D x /\ text_of D' x = text_of D x /\
    attributes D' x = attributes D x /\ same_neighbours D D' x.

(* The call stopped in a state that other calls lead to; or in copy_node of some node, so that the copy has a
   link whose target does not know it as a user. *)
Definition half_copied (g : guards) (D D' : dom) : Prop :=
  reachable D' /\ kept D D' \/
  exists D1 x a q, reachable D1 /\ kept D D1 /\ exists_node D x /\ In a (attributes D x) /\ torn_copy g D1 a /\
    u_copy_node g x D1 = (D', Panics q) /\ ~ mirrored D'.
