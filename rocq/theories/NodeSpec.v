(* Specification: what it means that a call changes one node only, and that a node is on its own. *)
From Coq Require Import List Bool PeanoNat NArith.
From Verif Require Import Base Ids Links Tree Data Attrs Slab NodeApi Doc History.
Import ListNotations.

(* All that the getters tell about [m]. *)
Record same_node (m : nid) (D D' : dom) : Prop := {
  sm_type   : node_type D' m = node_type D m;
  sm_tag    : tag_name D' m = tag_name D m;
  sm_id     : id_of D' m = id_of D m;
  sm_text   : text_of D' m = text_of D m;
  sm_attrs  : attributes D' m = attributes D m;
  sm_linked : linked_nodes D' m = linked_nodes D m;
  sm_out    : is_detached D' m = is_detached D m
}.

(* The trees, the root node and all nodes but [n] are as before. *)
Record only_node (n : nid) (D D' : dom) : Prop := {
  on_links_same : lk D' = lk D;
  on_root       : droot D' = droot D;
  on_nodes      : forall m, m <> n -> same_node m D D'
}.

(* No new nodes. *)
Definition same_count (D D' : dom) : Prop := forall m, exists_node D' m <-> exists_node D m.

(* [n] is a new node: it did not exist, it is the only one that does now, it belongs to the document
   and stands alone. *)
Record new_node (n : nid) (D D' : dom) : Prop := {
  nw_before  : ~ exists_node D n;
  nw_after   : forall m, exists_node D' m <-> exists_node D m \/ m = n;
  nw_in      : is_detached D' n = false;
  nw_id      : id_of D' n = [];
  nw_attrs   : attributes D' n = [];
  nw_linked  : linked_nodes D' n = [];
  nw_parent  : parent (lk D') n = None;
  nw_first   : first_child (lk D') n = None;
  nw_last    : last_child (lk D') n = None;
  nw_next    : next_sibling (lk D') n = None;
  nw_prev    : previous_sibling (lk D') n = None;
  nw_root    : root_of (lk D') n = n;
  nw_only    : only_node n D D'
}.

(* The other fields of [n] when one of them is set. *)
Definition same_but_text (n : nid) (D D' : dom) : Prop :=
  node_type D' n = node_type D n /\ tag_name D' n = tag_name D n /\ id_of D' n = id_of D n /\
  attributes D' n = attributes D n /\ linked_nodes D' n = linked_nodes D n /\ is_detached D' n = is_detached D n.
Definition same_but_id (n : nid) (D D' : dom) : Prop :=
  node_type D' n = node_type D n /\ tag_name D' n = tag_name D n /\ text_of D' n = text_of D n /\
  attributes D' n = attributes D n /\ linked_nodes D' n = linked_nodes D n /\ is_detached D' n = is_detached D n.
Definition same_but_tag (n : nid) (D D' : dom) : Prop :=
  node_type D' n = node_type D n /\ id_of D' n = id_of D n /\ text_of D' n = text_of D n /\
  attributes D' n = attributes D n /\ linked_nodes D' n = linked_nodes D n /\ is_detached D' n = is_detached D n.
