(* Specification: what guards held by the user do to the calls of Document. *)
From Coq Require Import List.
From Verif Require Import Base Links Tree ForestSpec Data Attrs Slab NodeApi Guards GuardSpec.
Import ListNotations.

(* The node has other attributes, other users or other neighbours afterwards. *)
Definition altered (D D' : dom) (x : nid) : Prop :=
  attributes D' x <> attributes D x \/ linked_nodes D' x <> linked_nodes D x \/ ~ same_neighbours D D' x.

(* Removing the nodes [S] from [D] gives [D']: the user holds a guard of a node that is removed or altered,
   or a RefMut of a user of a removed node. *)
Definition removal_blocked (g : guards) (S : list nid) (D D' : dom) : Prop :=
  exists x, held g x /\ (In x S \/ altered D D' x) \/
            held_mut g x /\ exists m, In m S /\ In x (linked_nodes D m).

(* Draining: nodes [V] are looked at, those of [S] are removed. *)
Definition drain_blocked (g : guards) (V S : list nid) (D D' : dom) : Prop :=
  (exists x, held_mut g x /\ In x V) \/ removal_blocked g S D D'.

(* Copying the nodes [S]: the user holds a RefMut of one of them, or a guard of a node that one of them,
   if it is an element, has a link to. *)
Definition copy_blocked (g : guards) (S : list nid) (D : dom) : Prop :=
  exists n, In n S /\ (held_mut g n \/
    node_type D n = NElement /\ exists a t, In a (attributes D n) /\ link_target (a_value a) = Some t /\ held g t).

(* Dropping [D] gives [D']: the user holds a guard of a node that belongs to the document, or that gets
   other neighbours. *)
Definition drop_blocked_by (g : guards) (D D' : dom) : Prop :=
  exists x, held g x /\ (is_detached D x = false \/ ~ same_neighbours D D' x).
