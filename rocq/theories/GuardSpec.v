(* Specification: what guards held by the user do to a call. *)
From Coq Require Import List.
From Verif Require Import Base Links Tree Data Attrs Slab NodeApi Guards.
Import ListNotations.

(* The user holds a guard of [n] / a RefMut of [n]. *)
Definition held (g : guards) (n : nid) : Prop := In n (g_ref g) \/ In n (g_mut g).
Definition held_mut (g : guards) (n : nid) : Prop := In n (g_mut g).

(* Guards that can exist: a RefMut is the only guard of its node. *)
Definition lawful (g : guards) : Prop := NoDup (g_mut g) /\ forall n, In n (g_mut g) -> ~ In n (g_ref g).

(* The neighbours of [x] are the same before and after. *)
Definition same_neighbours (D D' : dom) (x : nid) : Prop :=
  parent (lk D') x = parent (lk D) x /\ first_child (lk D') x = first_child (lk D) x /\
  last_child (lk D') x = last_child (lk D) x /\ next_sibling (lk D') x = next_sibling (lk D) x /\
  previous_sibling (lk D') x = previous_sibling (lk D) x.

(* [free] is the outcome of a call without guards, [guarded] the outcome with guards [g]: the same, except
   that it is a panic if a held node is one of [own] or gets other neighbours. *)
Definition moves_under (g : guards) (own : list nid) (D : dom) (free guarded : res dom) : Prop :=
  (forall q, free = Panic q -> guarded = Panic q) /\
  (forall D', free = Ok D' ->
     ((forall x, held g x -> ~ In x own /\ same_neighbours D D' x) -> guarded = Ok D') /\
     ((exists x, held g x /\ (In x own \/ ~ same_neighbours D D' x)) -> guarded = Panic PBorrow)).

(* [self] has an attribute with this name that is a link to [t]. *)
Definition points_to (D : dom) (self : nid) (name : aname) (t : nid) : Prop :=
  exists a, In a (attributes D self) /\ a_name a = name /\ link_target (a_value a) = Some t.

(* A call that sets attribute [a] of [self] writes to [self], to the node the attribute is a link to, and to
   the node the attribute of this name was a link to.  One of them is held. *)
Definition set_blocked (g : guards) (D : dom) (self : nid) (a : attr) : Prop :=
  held g self \/ exists t, (link_target (a_value a) = Some t \/ points_to D self (a_name a) t) /\ held g t.
(* A call that removes an attribute of [self] writes to [self] and to the node it was a link to. *)
Definition remove_blocked (g : guards) (D : dom) (self : nid) (name : aname) : Prop :=
  held g self \/ exists t, points_to D self name t /\ held g t.

(* [free] is the outcome of a call without guards, [guarded] the outcome with guards: the same, except that
   it is a panic if [stop]. *)
Definition same_unless {A} (stop : Prop) (free guarded : res A) : Prop :=
  (forall q, free = Panic q -> exists q', guarded = Panic q') /\
  (forall r, free = Ok r -> (stop -> guarded = Panic PBorrow) /\ (~ stop -> guarded = Ok r)).
