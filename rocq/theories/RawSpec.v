(* Specification: documents whose attributes and lists of users were edited in any way. *)
From Coq Require Import List Bool PeanoNat.
From Verif Require Import Base Links Data Attrs Slab NodeApi Doc History Raw.
Import ListNotations.

(* Any calls on existing nodes, any edits through attributes_mut and linked_nodes_mut. *)
Inductive raw_reachable : dom -> Prop :=
| raw_new : forall D, new_document = Ok D -> raw_reachable D
| raw_call : forall D o D', raw_reachable D -> (forall n, In n (handles o) -> exists_node D n) -> step o D = Ok D' ->
    raw_reachable D'
| raw_attrs : forall D n l, raw_reachable D -> exists_node D n -> raw_reachable (attributes_mut n l D)
| raw_users : forall D n l, raw_reachable D -> exists_node D n -> raw_reachable (linked_nodes_mut n l D).

(* [E] is [D] without attributes and users: the same nodes, tree, storage, names, ids and texts. *)
Record bare (E D : dom) : Prop := {
  ba_links : lk E = lk D;
  ba_fresh : fresh E = fresh D;
  ba_root  : droot E = droot D;
  ba_store : store E = store D;
  ba_key   : forall n, storage_key E n = storage_key D n;
  ba_type  : forall n, node_type E n = node_type D n;
  ba_tag   : forall n, tag_name E n = tag_name D n;
  ba_id    : forall n, id_of E n = id_of D n;
  ba_text  : forall n, text_of E n = text_of D n;
  ba_attrs : forall n, attributes E n = [];
  ba_users : forall n, linked_nodes E n = []
}.

(* The first attribute of [n] called [name] can be taken away: if it is a link then [n] is a user of the target,
   and the target is not [n] itself. *)
Definition first_named (l : list attr) (name : aname) : option attr := find (fun a => aname_eqb (a_name a) name) l.
Definition removable (D : dom) (n : nid) (name : aname) : Prop :=
  forall a t, first_named (attributes D n) name = Some a -> link_target (a_value a) = Some t ->
    In n (linked_nodes D t) /\ t <> n.

(* [l] without its first element that is [x] / that is called [name]. *)
Definition without_first {A} (p : A -> bool) (l l' : list A) : Prop :=
  exists l1 x l2, l = l1 ++ x :: l2 /\ l' = l1 ++ l2 /\ p x = true /\ forall y, In y l1 -> p y = false.

(* Nothing but attributes and users differs. *)
Record same_but_links (D D' : dom) : Prop := {
  sb_links : lk D' = lk D;
  sb_fresh : fresh D' = fresh D;
  sb_root  : droot D' = droot D;
  sb_store : store D' = store D;
  sb_key   : forall n, storage_key D' n = storage_key D n;
  sb_type  : forall n, node_type D' n = node_type D n;
  sb_tag   : forall n, tag_name D' n = tag_name D n;
  sb_id    : forall n, id_of D' n = id_of D n;
  sb_text  : forall n, text_of D' n = text_of D n
}.

(* What a removal that returns does. *)
Definition attribute_gone (D : dom) (n : nid) (name : aname) (D' : dom) : Prop :=
  same_but_links D D' /\
  (forall m, m <> n -> attributes D' m = attributes D m) /\
  match first_named (attributes D n) name with
  | None => attributes D' n = attributes D n /\ forall m, linked_nodes D' m = linked_nodes D m
  | Some a => without_first (fun x => aname_eqb (a_name x) name) (attributes D n) (attributes D' n) /\
      forall m, match link_target (a_value a) with
                | Some t => if Nat.eqb m t then without_first (Nat.eqb n) (linked_nodes D m) (linked_nodes D' m)
                            else linked_nodes D' m = linked_nodes D m
                | None => linked_nodes D' m = linked_nodes D m
                end
  end.

(* The calls that neither read nor write attributes. *)
Definition no_attributes (o : op) : Prop :=
  match o with
  | OCreateElement _ | OCreateNode _ _ | ODetach _ | OAppend _ _ | OPrepend _ _ | OInsertAfter _ _ | OInsertBefore _ _
  | OSetText _ _ | OTextMut _ _ | OSetId _ _ | OSetTagName _ _ => True
  | _ => False
  end.
Definition same_outcome (rE rD : res dom) : Prop :=
  match rD, rE with
  | Ok D', Ok E' => bare E' D'
  | Panic p, Panic q => p = q
  | Diverge, Diverge => True
  | _, _ => False
  end.

(* set_attribute_checked answers with an error: the target has no id, the same id, or is a user. *)
Definition refused (D : dom) (n : nid) (a : attr) : Prop :=
  exists t, link_target (a_value a) = Some t /\ (id_of D t = [] \/ id_of D n = id_of D t \/ In t (linked_nodes D n)).
