(* Specification: programs with several documents. *)
From Coq Require Import List Bool PeanoNat.
From Verif Require Import Base Links Tree Data Attrs Slab NodeApi Doc History World.
Import ListNotations.

(* Two states that no program can tell apart. *)
Record same_dom (D E : dom) : Prop := {
  sd_links : forall n, l_root (lk D) n = l_root (lk E) n /\ l_parent (lk D) n = l_parent (lk E) n /\
                       l_first (lk D) n = l_first (lk E) n /\ l_last (lk D) n = l_last (lk E) n /\
                       l_prev (lk D) n = l_prev (lk E) n /\ l_next (lk D) n = l_next (lk E) n;
  sd_data  : forall n, dt D n = dt E n;
  sd_fresh : fresh D = fresh E;
  sd_root  : droot D = droot E;
  sd_store : store D = store E
}.

(* The closure of drain looks at nothing but the state. *)
Definition sees_state (o : op) : Prop :=
  match o with
  | ODrain _ f => forall D E n, same_dom D E -> f D n = f E n
  | _ => True
  end.

(* A call on document [i] that only gets nodes made by this document. *)
Definition own_nodes (i : nat) (o : op) (W : world) : Prop :=
  sees_state o /\
  exists D, view W i = Some D /\ legal o D /\ forall n, In n (handles o) -> w_owner W n = i.

(* A call that gets any existing nodes. *)
Definition any_nodes (i : nat) (o : op) (W : world) : Prop :=
  exists D, view W i = Some D /\ legal o D.

(* Values, attributes and data with other handles. *)
Definition rename_value (f : nid -> nid) (v : avalue) : avalue :=
  match v with
  | VFuncLink n => VFuncLink (f n)
  | VPaint n fb => VPaint (f n) fb
  | VLink n => VLink (f n)
  | v => v
  end.
Definition rename_attr (f : nid -> nid) (a : attr) : attr := mkAttr (a_name a) (rename_value f (a_value a)).
Definition rename_data (f : nid -> nid) (d : ndata) : ndata :=
  mkData (d_key d) (d_type d) (d_tag d) (d_id d) (map (rename_attr f) (d_attrs d)) (map f (d_linked d)) (d_text d).

(* [E] shows the document [D] with other handles: the node [n] of [D] is the node [f n] of [E].  [E] may
   have more nodes. *)
Record shows_doc (f : nid -> nid) (D E : dom) : Prop := {
  sw_one   : forall a b, exists_node D a -> exists_node D b -> f a = f b -> a = b;
  sw_node  : forall n, exists_node D n -> exists_node E (f n);
  sw_links : forall n, exists_node D n ->
               l_root (lk E) (f n) = option_map f (l_root (lk D) n) /\
               l_parent (lk E) (f n) = option_map f (l_parent (lk D) n) /\
               l_first (lk E) (f n) = option_map f (l_first (lk D) n) /\
               l_last (lk E) (f n) = option_map f (l_last (lk D) n) /\
               l_prev (lk E) (f n) = option_map f (l_prev (lk D) n) /\
               l_next (lk E) (f n) = option_map f (l_next (lk D) n);
  sw_data  : forall n, exists_node D n -> dt E (f n) = rename_data f (dt D n);
  sw_root  : droot E = f (droot D);
  sw_store : forall k, slab_get (store E) k = option_map f (slab_get (store D) k)
}.

(* The same call with other handles; the closures of drain may be any. *)
Inductive renamed_op (f : nid -> nid) : op -> op -> Prop :=
| rn_element : forall t, renamed_op f (OCreateElement t) (OCreateElement t)
| rn_node : forall ty s, renamed_op f (OCreateNode ty s) (OCreateNode ty s)
| rn_remove : forall n, renamed_op f (ORemoveNode n) (ORemoveNode (f n))
| rn_drain : forall n p q, renamed_op f (ODrain n p) (ODrain (f n) q)
| rn_copy : forall n, renamed_op f (OCopyNode n) (OCopyNode (f n))
| rn_deep : forall n, renamed_op f (OCopyNodeDeep n) (OCopyNodeDeep (f n))
| rn_detach : forall n, renamed_op f (ODetach n) (ODetach (f n))
| rn_append : forall p n, renamed_op f (OAppend p n) (OAppend (f p) (f n))
| rn_prepend : forall p n, renamed_op f (OPrepend p n) (OPrepend (f p) (f n))
| rn_after : forall p n, renamed_op f (OInsertAfter p n) (OInsertAfter (f p) (f n))
| rn_before : forall p n, renamed_op f (OInsertBefore p n) (OInsertBefore (f p) (f n))
| rn_text : forall n s, renamed_op f (OSetText n s) (OSetText (f n) s)
| rn_text_mut : forall n s, renamed_op f (OTextMut n s) (OTextMut (f n) s)
| rn_id : forall n s, renamed_op f (OSetId n s) (OSetId (f n) s)
| rn_tag : forall n t, renamed_op f (OSetTagName n t) (OSetTagName (f n) t)
| rn_set : forall n a, renamed_op f (OSetAttribute n a) (OSetAttribute (f n) (rename_attr f a))
| rn_checked : forall n a, renamed_op f (OSetAttributeChecked n a) (OSetAttributeChecked (f n) (rename_attr f a))
| rn_if_none : forall n a, renamed_op f (OSetAttributeIfNone n a) (OSetAttributeIfNone (f n) (rename_attr f a))
| rn_remove_attr : forall n x, renamed_op f (ORemoveAttribute n x) (ORemoveAttribute (f n) x)
| rn_edit : forall n x a, renamed_op f (OAttributeMut n x a) (OAttributeMut (f n) x (rename_attr f a)).

(* The node [n] has the same links and data. *)
Definition same_at (V V' : dom) (n : nid) : Prop :=
  l_root (lk V') n = l_root (lk V) n /\ l_parent (lk V') n = l_parent (lk V) n /\
  l_first (lk V') n = l_first (lk V) n /\ l_last (lk V') n = l_last (lk V) n /\
  l_prev (lk V') n = l_prev (lk V) n /\ l_next (lk V') n = l_next (lk V) n /\ dt V' n = dt V n.

(* Document [i] of [W] is [V].  Seen alone it is the document [D], reached by calls on one document; the
   nodes of [V] that document [i] made are the nodes of [D]. *)
Definition alone (W : world) (i : nat) (V : dom) (f : nid -> nid) (D : dom) : Prop :=
  reachable D /\ shows_doc f D V /\
  (forall m, exists_node V m -> (w_owner W m = i <-> exists n, exists_node D n /\ f n = m)).

(* Document [j] of [W] is still there in [W'] and none of its nodes has changed. *)
Definition untouched (W W' : world) (j : nat) : Prop :=
  forall V, view W j = Some V -> exists V', view W' j = Some V' /\ droot V' = droot V /\ store V' = store V /\
    forall n, exists_node V n -> w_owner W n = j -> w_owner W' n = j /\ same_at V V' n.

(* No document of the program was dropped. *)
Definition nothing_dropped (W : world) : Prop := forall j, nth_error (w_docs W) j <> Some None.

(* The storage keys of the nodes of a list that have one. *)
Definition keys_of (D : dom) (l : list nid) : list nat :=
  flat_map (fun n => match storage_key D n with Some k => [k] | None => [] end) l.
