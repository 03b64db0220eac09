(* Specification: two documents that differ in the order of attributes and of users only. *)
From Coq Require Import List PeanoNat Sorting.Permutation.
From Verif Require Import Base Ids Links Tree Data Attrs Slab NodeApi Doc History.
Import ListNotations.

(* The same nodes, the same tree, the same answers of all getters, except that attributes() and linked_nodes() may
   list the same things in another order.  root() is not compared. *)
Record akin (D D' : dom) : Prop := {
  ak_nodes    : forall n, exists_node D' n <-> exists_node D n;
  ak_root     : droot D' = droot D;
  ak_parent   : forall n, exists_node D n -> parent (lk D') n = parent (lk D) n;
  ak_first    : forall n, exists_node D n -> first_child (lk D') n = first_child (lk D) n;
  ak_last     : forall n, exists_node D n -> last_child (lk D') n = last_child (lk D) n;
  ak_next     : forall n, exists_node D n -> next_sibling (lk D') n = next_sibling (lk D) n;
  ak_previous : forall n, exists_node D n -> previous_sibling (lk D') n = previous_sibling (lk D) n;
  ak_type     : forall n, exists_node D n -> node_type D' n = node_type D n;
  ak_tag      : forall n, exists_node D n -> tag_name D' n = tag_name D n;
  ak_id       : forall n, exists_node D n -> id_of D' n = id_of D n;
  ak_text     : forall n, exists_node D n -> text_of D' n = text_of D n;
  ak_attrs    : forall n, exists_node D n -> Permutation (attributes D' n) (attributes D n);
  ak_users    : forall n, exists_node D n -> Permutation (linked_nodes D' n) (linked_nodes D n);
  ak_detached : forall n, exists_node D n -> is_detached D' n = is_detached D n
}.

(* Both calls return and their results are related, or both panic, or both run forever. *)
Definition same_outcome {A} (R : A -> A -> Prop) (x y : res A) : Prop :=
  match x, y with
  | Ok a, Ok b => R a b
  | Panic _, Panic _ => True
  | Diverge, Diverge => True
  | _, _ => False
  end.

(* The closure given to drain does not look at the order either. *)
Definition fair (o : op) : Prop :=
  match o with
  | ODrain _ f => forall D D', reachable D -> reachable D' -> akin D D' -> forall x, exists_node D x -> f D' x = f D x
  | _ => True
  end.

(* A sequence of calls, all of which return. *)
Inductive calls : list op -> dom -> dom -> Prop :=
| calls_none : forall D, calls [] D D
| calls_more : forall o l D D1 D2, legal o D -> step o D = Ok D1 -> calls l D1 D2 -> calls (o :: l) D D2.

(* The attributes with names of no SVG attribute, in order. *)
Definition custom_attrs (D : dom) (n : nid) : list attr :=
  filter (fun a => match a_name a with QName _ => true | QId _ => false end) (attributes D n).
