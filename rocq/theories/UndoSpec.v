(* Specification: a document looks as it did before. *)
From Coq Require Import List PeanoNat Sorting.Permutation.
From Verif Require Import Base Ids Links Tree Data Attrs Slab NodeApi Doc History.
Import ListNotations.

(* All getters but root() give the same answers as before for the nodes that existed before; only the order of
   linked_nodes() may be different. *)
Record as_before (D D' : dom) : Prop := {
  ab_root     : droot D' = droot D;
  ab_parent   : forall n, exists_node D n -> parent (lk D') n = parent (lk D) n;
  ab_first    : forall n, exists_node D n -> first_child (lk D') n = first_child (lk D) n;
  ab_last     : forall n, exists_node D n -> last_child (lk D') n = last_child (lk D) n;
  ab_next     : forall n, exists_node D n -> next_sibling (lk D') n = next_sibling (lk D) n;
  ab_previous : forall n, exists_node D n -> previous_sibling (lk D') n = previous_sibling (lk D) n;
  ab_type     : forall n, exists_node D n -> node_type D' n = node_type D n;
  ab_tag      : forall n, exists_node D n -> tag_name D' n = tag_name D n;
  ab_id       : forall n, exists_node D n -> id_of D' n = id_of D n;
  ab_text     : forall n, exists_node D n -> text_of D' n = text_of D n;
  ab_attrs    : forall n, exists_node D n -> attributes D' n = attributes D n;
  ab_users    : forall n, exists_node D n -> Permutation (linked_nodes D' n) (linked_nodes D n);
  ab_detached : forall n, exists_node D n -> is_detached D' n = is_detached D n
}.

(* A node without parent and siblings. *)
Definition stands_alone (D : dom) (n : nid) : Prop :=
  parent (lk D) n = None /\ next_sibling (lk D) n = None /\ previous_sibling (lk D) n = None.

(* The links of a node have SVG attribute names. *)
Definition svg_links_only (D : dom) (n : nid) : Prop :=
  forall a t, In a (attributes D n) -> link_target (a_value a) = Some t -> exists id, a_name a = QId id.
