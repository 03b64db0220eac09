(* C77: raw access to attributes and lists of users. *)
From Coq Require Import List Bool PeanoNat NArith String.
From Verif Require Import Base Ids Links Tree ForestSpec TreeSpec TreeApi Data Attrs Slab NodeApi AttrSpec Doc DocSpec DropSpec
  History Replay Samples Raw RawSpec RawProofs.
Import ListNotations.
Open Scope string_scope.

(* C77: edits through attributes_mut and linked_nodes_mut can break nothing but attributes and users.  Whatever
   they wrote, the tree, the storage, the names, ids and texts are those of a document reached by calls alone ... *)
Theorem C77_bare D : raw_reachable D -> exists E, reachable E /\ bare E D.
Proof. exact (raw_bare D). Qed.
Print Assumptions C77_bare.
(* ... so the accessors describe one forest ... *)
Theorem C77_trees D : raw_reachable D -> exists F, shows (lk D) F.
Proof. exact (raw_trees D). Qed.
Print Assumptions C77_trees.
(* ... each slot of the storage belongs to the one node that has its key ... *)
Theorem C77_slots D : raw_reachable D ->
  (forall n k, storage_key D n = Some k <-> slab_get (store D) k = Some n) /\
  (forall n m k, storage_key D n = Some k -> storage_key D m = Some k -> n = m) /\
  (forall n k, storage_key D n = Some k -> exists s, slab_remove (store D) k = Ok (n, s)).
Proof. exact (raw_slots D). Qed.
Print Assumptions C77_slots.
(* ... and the calls that do not look at attributes, and the drop of the document, return and panic as they do in
   the document without attributes. *)
Theorem C77_calls E D o : bare E D -> no_attributes o -> same_outcome (step o E) (step o D).
Proof. exact (raw_calls E D o). Qed.
Print Assumptions C77_calls.
Theorem C77_drop E D : bare E D -> same_outcome (drop_document E) (drop_document D).
Proof. exact (raw_drop E D). Qed.
Print Assumptions C77_drop.
(* An attribute can be removed exactly when it is no link, or its target lists this node and is another node. *)
Theorem C77_remove_attribute D n name : (exists D', remove_attribute n name D = Ok D') <-> removable D n name.
Proof. exact (raw_remove_returns D n name). Qed.
Print Assumptions C77_remove_attribute.
Theorem C77_remove_effect D n name D' : remove_attribute n name D = Ok D' -> attribute_gone D n name D'.
Proof. exact (raw_remove_effect D n name D'). Qed.
Print Assumptions C77_remove_effect.
Theorem C77_remove_unwrap D n name a t : first_named (attributes D n) name = Some a -> link_target (a_value a) = Some t ->
  ~ In n (linked_nodes D t) -> remove_attribute n name D = Panic PUnwrap.
Proof. exact (raw_remove_unwrap D n name a t). Qed.
Print Assumptions C77_remove_unwrap.
Theorem C77_remove_borrow D n name a : first_named (attributes D n) name = Some a -> link_target (a_value a) = Some n ->
  In n (linked_nodes D n) -> remove_attribute n name D = Panic PBorrow.
Proof. exact (raw_remove_borrow D n name a). Qed.
Print Assumptions C77_remove_borrow.
(* An attribute can be set exactly when the call answers with an error or the old one can be removed. *)
Theorem C77_set_attribute D n a : (exists r, set_attribute_checked n a D = Ok r) <->
  is_element D n = true /\ (refused D n a \/ removable D n (a_name a)).
Proof. exact (raw_set_returns D n a). Qed.
Print Assumptions C77_set_attribute.
(* A node with a finite tree below it is removed in full, or the call panics on an attribute. *)
Theorem C77_remove_node D F t : raw_reachable D -> shows (lk D) F -> tree_at F t -> exists_node D (t_node t) ->
  (exists D' F', remove_node (t_node t) D = Ok D' /\ shows (lk D') F' /\ pruned (preorder t) F F' /\
     forall x, storage_key D' x = if mem x (preorder t) then None else storage_key D x) \/
  remove_node (t_node t) D = Panic PUnwrap \/ remove_node (t_node t) D = Panic PBorrow.
Proof. exact (raw_remove_tree D F t). Qed.
Print Assumptions C77_remove_node.

Lemma reachable_raw D : reachable D -> raw_reachable D.
Proof.
  induction 1 as [D H|D o D' _ IH (Hn & _) H]; [now constructor|]. now apply (raw_call D o).
Qed.
(* The gradient 7 forgets its users 3, 4 and 8; the rectangle 3 then has a link that cannot be removed, nor can 3
   itself.  The element 5 is made a user of itself. *)
Definition forgot : dom := linked_nodes_mut 7 [] doc.
Definition selfish : dom := linked_nodes_mut 5 [5] (attributes_mut 5 [mkAttr (QId A_Fill) (VPaint 5 None)] forgot).
Example C77_case : (raw_reachable forgot /\ remove_attribute 3 (QId A_Fill) forgot = Panic PUnwrap /\
    remove_node 2 forgot = Panic PUnwrap /\ removable forgot 3 (QId A_Stroke) /\
    (exists D', remove_node 5 forgot = Ok D' /\ next_sibling (lk D') 2 = Some 7)) /\
  (raw_reachable selfish /\ remove_attribute 5 (QId A_Fill) selfish = Panic PBorrow /\ remove_node 5 selfish = Panic PBorrow /\
    exists D', drop_document selfish = Ok D') /\
  exists r, set_attribute_checked 3 (mkAttr (QId A_Stroke) (VPaint 8 None)) forgot = Ok r.
Proof.
  assert (R1 : raw_reachable forgot).
  { apply raw_users; [exact (reachable_raw doc doc_reachable)|]. apply Nat.leb_le; vm_compute; reflexivity. }
  split; [|split].
  - split; [exact R1|]. split; [vm_compute; reflexivity|]. split; [vm_compute; reflexivity|]. split.
    + apply C77_remove_attribute.
      assert (H : exists D', remove_attribute 3 (QId A_Stroke) forgot = Ok D' /\ True) by (apply ok_case; vm_compute; exact Logic.I).
      destruct H as (D' & H & _). now exists D'.
    + apply ok_case. vm_compute. reflexivity.
  - split; [|split; [vm_compute; reflexivity|split; [vm_compute; reflexivity|]]].
    + apply raw_users; [apply raw_attrs; [exact R1|]|]; apply Nat.leb_le; vm_compute; reflexivity.
    + assert (H : exists D', drop_document selfish = Ok D' /\ True) by (apply ok_case; vm_compute; exact Logic.I).
      destruct H as (D' & H & _). now exists D'.
  - assert (H : exists r, set_attribute_checked 3 (mkAttr (QId A_Stroke) (VPaint 8 None)) forgot = Ok r /\ True) by (apply ok_case; vm_compute; exact Logic.I).
    destruct H as (D' & H & _). now exists D'.
Qed.
