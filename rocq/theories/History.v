(* Histories of API calls on one document.  The state is everything the user can observe; a call
   that panics ends the history. *)
From Coq Require Import List Bool PeanoNat NArith.
From Verif Require Import Base Ids Links Tree Data Attrs Slab NodeApi Doc.
Import ListNotations.

(* The mutating public API of document.rs, node.rs and tree.rs, except linked_nodes_mut (node.rs:
   607-609), which hands out raw access to the list of users.  attributes_mut (node.rs:314-316) is
   included for edits that do not touch links, see plain_edit.
   Simplification: the closure of drain may read the document but not change it. *)
Inductive op :=
| OCreateElement (t : tagname)             (* document.rs:113 *)
| OCreateNode (ty : ntype) (s : str)       (* document.rs:149 *)
| ORemoveNode (n : nid)                    (* document.rs:235 *)
| ODrain (root : nid) (f : dom -> nid -> bool)  (* document.rs:303 *)
| OCopyNode (n : nid)                      (* document.rs:333 *)
| OCopyNodeDeep (n : nid)                  (* document.rs:353 *)
| ODetach (n : nid)                        (* tree.rs:231 *)
| OAppend (p n : nid)                      (* tree.rs:238 *)
| OPrepend (p n : nid)                     (* tree.rs:273 *)
| OInsertAfter (a n : nid)                 (* tree.rs:305 *)
| OInsertBefore (a n : nid)                (* tree.rs:345 *)
| OSetText (n : nid) (s : str)             (* node.rs:192 *)
| OTextMut (n : nid) (s : str)             (* node.rs:183 *)
| OSetId (n : nid) (s : str)               (* node.rs:222 *)
| OSetTagName (n : nid) (t : tagname)      (* node.rs:285 *)
| OSetAttribute (n : nid) (a : attr)       (* node.rs:339 *)
| OSetAttributeChecked (n : nid) (a : attr)(* node.rs:452 *)
| OSetAttributeIfNone (n : nid) (a : attr) (* node.rs:547 *)
| ORemoveAttribute (n : nid) (name : aname)(* node.rs:563 *)
| OAttributeMut (n : nid) (name : aname) (a : attr) (* node.rs:314 and attributes.rs:88 *).

(* A tree operation on the whole document. *)
Definition on_links (f : links -> res links) (D : dom) : res dom :=
  L <- f (lk D) ;; Ok (with_lk L D).

(* One call; the values returned to the user are dropped. *)
Definition step (o : op) (D : dom) : res dom :=
  match o with
  | OCreateElement t => r <- create_element t D ;; Ok (snd r)
  | OCreateNode ty s => r <- create_node ty s D ;; Ok (snd r)
  | ORemoveNode n => remove_node n D
  | ODrain root f => r <- drain root f D ;; Ok (fst r)
  | OCopyNode n => r <- copy_node n D ;; Ok (snd r)
  | OCopyNodeDeep n => r <- copy_node_deep n D ;; Ok (snd r)
  | ODetach n => on_links (detach [] n) D
  | OAppend p n => on_links (append [] p n) D
  | OPrepend p n => on_links (prepend [] p n) D
  | OInsertAfter a n => on_links (insert_after [] a n) D
  | OInsertBefore a n => on_links (insert_before [] a n) D
  | OSetText n s => set_text n s D
  | OTextMut n s => Ok (text_mut n s D)
  | OSetId n s => set_id n s D
  | OSetTagName n t => set_tag_name n t D
  | OSetAttribute n a => set_attribute n a D
  | OSetAttributeChecked n a => r <- set_attribute_checked n a D ;; Ok (fst r)
  | OSetAttributeIfNone n a => set_attribute_if_none n a D
  | ORemoveAttribute n name => remove_attribute n name D
  | OAttributeMut n name a => Ok (attribute_mut n name a D)
  end.

(* The node handles passed to a call. *)
Definition handles (o : op) : list nid :=
  match o with
  | OCreateElement _ | OCreateNode _ _ => []
  | ORemoveNode n | ODrain n _ | OCopyNode n | OCopyNodeDeep n | ODetach n
  | OSetText n _ | OTextMut n _ | OSetId n _ | OSetTagName n _ | ORemoveAttribute n _
  | OAttributeMut n _ _ => [n]
  | OAppend p n | OPrepend p n | OInsertAfter p n | OInsertBefore p n => [p; n]
  | OSetAttribute n a | OSetAttributeChecked n a | OSetAttributeIfNone n a =>
      n :: match link_target (a_value a) with Some t => [t] | None => [] end
  end.

(* A node exists once it was created. *)
Definition exists_node (D : dom) (n : nid) : Prop := n < fresh D.

(* An edit through attributes_mut is plain when neither the old nor the new value is a link to a node
   and the new name is not the name of another attribute.  Other edits bypass the bookkeeping of the
   library: see C64. *)
Definition plain_edit (o : op) (D : dom) : Prop :=
  match o with
  | OAttributeMut n name a =>
      link_target (a_value a) = None /\
      (forall old, attrs_get (attributes D n) name = Some old -> link_target (a_value old) = None) /\
      (a_name a = name \/ has_attribute D n (a_name a) = false)
  | _ => True
  end.

(* The user can only pass handles of nodes that exist; edits through attributes_mut are plain. *)
Definition legal (o : op) (D : dom) : Prop :=
  (forall n, In n (handles o) -> exists_node D n) /\ plain_edit o D.

(* States reached by calls from Document::new. *)
Inductive reachable : dom -> Prop :=
| reach_new : forall D, new_document = Ok D -> reachable D
| reach_step : forall D o D', reachable D -> legal o D -> step o D = Ok D' -> reachable D'.

(* A call does not insert a node into its own subtree: [n] is not the target and not an ancestor
   of it, following parent(). *)
Inductive above (L : links) : nid -> nid -> Prop :=
| above_self : forall n, above L n n
| above_up : forall a n p, parent L n = Some p -> above L a p -> above L a n.

Definition no_cycle_made (o : op) (D : dom) : Prop :=
  match o with
  | OAppend p n | OPrepend p n | OInsertAfter p n | OInsertBefore p n => ~ above (lk D) n p
  | _ => True
  end.

(* States reached by calls none of which inserts a node into its own subtree. *)
Inductive reachable_tame : dom -> Prop :=
| tame_new : forall D, new_document = Ok D -> reachable_tame D
| tame_step : forall D o D', reachable_tame D -> legal o D -> no_cycle_made o D ->
    step o D = Ok D' -> reachable_tame D'.

(* No node is its own proper ancestor. *)
Definition acyclic_dom (D : dom) : Prop :=
  forall n p, parent (lk D) n = Some p -> ~ above (lk D) n p.

(* A call is orderly when it only gets nodes that were not removed from the document, and when the
   links it makes have SVG attribute names. *)
Definition svg_named (a : attr) : Prop := link_target (a_value a) <> None -> exists id, a_name a = QId id.

Definition orderly (o : op) (D : dom) : Prop :=
  (forall n, In n (handles o) -> storage_key D n <> None) /\
  match o with
  | OSetAttribute _ a | OSetAttributeChecked _ a | OSetAttributeIfNone _ a => svg_named a
  | _ => True
  end.

(* States reached by orderly calls none of which inserts a node into its own subtree. *)
Inductive reachable_orderly : dom -> Prop :=
| ord_new : forall D, new_document = Ok D -> reachable_orderly D
| ord_step : forall D o D', reachable_orderly D -> legal o D -> no_cycle_made o D -> orderly o D ->
    step o D = Ok D' -> reachable_orderly D'.

(* The calls only insert childless nodes, never the root node: trees grow from the top. *)
Definition leafy (o : op) (D : dom) : Prop :=
  match o with
  | OAppend p n | OPrepend p n | OInsertAfter p n | OInsertBefore p n =>
      first_child (lk D) n = None /\ n <> droot D
  | _ => True
  end.

Inductive reachable_leafy : dom -> Prop :=
| leafy_new : forall D, new_document = Ok D -> reachable_leafy D
| leafy_step : forall D o D', reachable_leafy D -> legal o D -> leafy o D -> step o D = Ok D' ->
    reachable_leafy D'.
