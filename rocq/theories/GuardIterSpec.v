(* Specification: what guards held by the user do to the iterators. *)
From Coq Require Import List.
From Verif Require Import Base Links Iter ForestSpec Guards GuardSpec.
Import ListNotations.

(* Where an iterator stands.  It began as [start] and yields the items of [l]: [front] was yielded by next(),
   [back] by next_back(), and [rest] is still to come. *)
Inductive walk {I A} (next next_back : I -> option A * I) (start : I) (l : list A)
  : list A -> list A -> list A -> I -> Prop :=
| walk_start : walk next next_back start l [] l [] start
| walk_front : forall front x rest back it it',
    walk next next_back start l front (x :: rest) back it -> next it = (Some x, it') ->
    walk next next_back start l (front ++ [x]) rest back it'
| walk_back : forall front rest x back it it',
    walk next next_back start l front (rest ++ [x]) back it -> next_back it = (Some x, it') ->
    walk next next_back start l front rest (x :: back) it'.

(* Node::children(). *)
Definition children_walk (L : links) (p : nid) := walk (children_next L) (children_next_back L) (children L p).
(* Node::traverse(). *)
Definition traverse_walk (L : links) (p : nid) := walk (traverse_next L) (traverse_next_back L) (traverse p).

(* The last item of a list. *)
Definition final {A} (l : list A) : option A := hd_error (rev l).

(* next() of children(): the node about to be yielded is held, or the one next_back() would yield.  When
   nothing is left: the node next() has yielded last is held. *)
Definition children_stuck (g : guards) (front rest : list nid) : Prop :=
  exists c, held_mut g c /\
    match rest with
    | [] => final front = Some c
    | x :: _ => c = x \/ final rest = Some c
    end.
(* next_back() of children(): the node about to be yielded is held. *)
Definition children_back_stuck (g : guards) (front rest : list nid) : Prop :=
  exists c, held_mut g c /\
    match rest with
    | [] => final front = Some c
    | _ => final rest = Some c
    end.

Definition edge_node (e : edge) : nid := match e with Start n | End n => n end.

(* The same for traverse() of [root].  The end of [root] is the exception: it is yielded by next() even if
   the node is held. *)
Definition traverse_stuck (g : guards) (root : nid) (front rest : list edge) : Prop :=
  exists e, held_mut g (edge_node e) /\ e <> End root /\
    match rest with
    | [] => final front = Some e
    | x :: _ => e = x \/ final rest = Some e
    end.
Definition traverse_back_stuck (g : guards) (root : nid) (front rest : list edge) : Prop :=
  exists e, held_mut g (edge_node e) /\
    match rest with
    | [] => e <> End root /\ final front = Some e
    | _ => final rest = Some e
    end.

(* Where descendants() stands: [front] was yielded, [rest] is still to come. *)
Inductive descendants_walk (L : links) (fuel : nat) (p : nid) (l : list nid)
  : list nid -> list nid -> traverse_it -> Prop :=
| dw_start : descendants_walk L fuel p l [] l (traverse p)
| dw_next : forall front x rest it it',
    descendants_walk L fuel p l front (x :: rest) it -> descendants_next fuel L it = Ok (Some x, it') ->
    descendants_walk L fuel p l (front ++ [x]) rest it'.

(* next() of descendants() of [root]: the node about to be yielded is held, or a node that is left on the
   way to it: the node yielded last or an ancestor of it, but not an ancestor of the next one. *)
Definition descendants_stuck (F : forest) (g : guards) (root : nid) (front rest : list nid) : Prop :=
  exists c, held_mut g c /\
    (hd_error rest = Some c \/
     exists y, final front = Some y /\ anc_or_self F c y /\ anc_or_self F root c /\
       match rest with
       | [] => c <> root
       | x :: _ => ~ anc_or_self F c x
       end).

(* One of these nodes has a RefMut. *)
Definition some_held (g : guards) (l : list nid) : Prop := exists x, In x l /\ held_mut g x.
