(* C12-C18: attributes and links between nodes. *)
From Coq Require Import String List Bool PeanoNat NArith.
From Verif Require Import Base Ids Links Tree Data Attrs Slab NodeApi AttrSpec Doc History
  Replay Samples LinkProofs ApiProofs.
Import ListNotations.
Open Scope string_scope.
Open Scope list_scope.

(* C12: attribute names are unique. *)
Theorem C12_names_unique D n : reachable D -> NoDup (map a_name (attributes D n)).
Proof. exact (fun H => li_uniq D (reach_linv D H) n). Qed.
Print Assumptions C12_names_unique.
Example C12_case : reachable doc /\ map a_name (attributes doc 3) = [QId A_Fill; QId A_Opacity].
Proof. split; [exact doc_reachable|]. vm_compute. reflexivity. Qed.

(* C13: an insertion ordered map; a written attribute becomes the last one. *)
Theorem C13_set D n a : reachable D -> is_element D n = true -> refused D n a = None ->
  exists D', set_attribute n a D = Ok D' /\ same_nodes D D' /\
    attributes D' n = others (a_name a) (attributes D n) ++ [mkAttr (a_name a) (shape (a_name a) (a_value a))] /\
    (forall m, m <> n -> attributes D' m = attributes D m).
Proof. intros H He Hr. pose proof (set_cases D n a H He) as C. rewrite Hr in C. exact C. Qed.
Print Assumptions C13_set.
Theorem C13_set_if_none D n a : reachable D ->
  (In (a_name a) (map a_name (attributes D n)) -> set_attribute_if_none n a D = Ok D) /\
  (~ In (a_name a) (map a_name (attributes D n)) -> set_attribute_if_none n a D = set_attribute n a D).
Proof. exact (if_none_cases D n a). Qed.
Print Assumptions C13_set_if_none.
Theorem C13_remove D n name : reachable D ->
  exists D', remove_attribute n name D = Ok D' /\ same_nodes D D' /\
    attributes D' n = others name (attributes D n) /\ (forall m, m <> n -> attributes D' m = attributes D m).
Proof. exact (remove_cases D n name). Qed.
Print Assumptions C13_remove.
Theorem C13_read D n name : reachable D ->
  (has_attribute D n name = true <-> In name (map a_name (attributes D n))) /\
  (forall v, attrs_get_value (attributes D n) name = Some v <-> In (mkAttr name v) (attributes D n)) /\
  (attrs_get_value (attributes D n) name = option_map a_value (attrs_get (attributes D n) name)).
Proof. exact (get_cases D n name). Qed.
Print Assumptions C13_read.
Example C13_case : reachable doc /\ is_element doc 3 = true /\
  refused doc 3 (mkAttr (QId A_Fill) (VFuncLink 8)) = None /\
  exists D', set_attribute 3 (mkAttr (QId A_Fill) (VFuncLink 8)) doc = Ok D' /\
    attributes D' 3 = [mkAttr (QId A_Opacity) (VString (lit "0.5")); mkAttr (QId A_Fill) (VPaint 8 None)].
Proof.
  split; [exact doc_reachable|]. split; [vm_compute; reflexivity|]. split; [vm_compute; reflexivity|].
  eexists. split; vm_compute; reflexivity.
Qed.

(* C14: errors are returned exactly when documented, and then nothing has changed. *)
Theorem C14_checked D n a : reachable D -> is_element D n = true ->
  match refused D n a with
  | Some e => set_attribute_checked n a D = Ok (D, RErr e)
  | None => exists D', set_attribute_checked n a D = Ok (D', ROk) /\ same_nodes D D' /\
      attributes D' n = others (a_name a) (attributes D n) ++ [mkAttr (a_name a) (shape (a_name a) (a_value a))] /\
      (forall m, m <> n -> attributes D' m = attributes D m)
  end.
Proof. exact (checked_cases D n a). Qed.
Print Assumptions C14_checked.
Theorem C14_set_panics D n a e : reachable D -> is_element D n = true -> refused D n a = Some e ->
  set_attribute n a D = Panic PUnwrap.
Proof. intros H He Hr. pose proof (set_cases D n a H He) as C. rewrite Hr in C. exact C. Qed.
Print Assumptions C14_set_panics.
Example C14_case : reachable doc /\ is_element doc 7 = true /\ is_element doc 3 = true /\
  refused doc 7 (mkAttr (QId A_Href) (VLink 8)) = Some ElementCrosslink /\
  refused doc 7 (mkAttr (QId A_Href) (VLink 7)) = Some ElementCrosslink /\
  refused doc 3 (mkAttr (QId A_Mask) (VFuncLink 2)) = Some ElementMustHaveAnId /\
  refused doc 3 (mkAttr (QId A_Mask) (VFuncLink 7)) = None.
Proof. split; [exact doc_reachable|]. vm_compute. tauto. Qed.

(* C15: linked_nodes mirrors the links. *)
Theorem C15_mirror D : reachable D ->
  (forall a b, times a (linked_nodes D b) = uses D a b) /\
  (forall b, uses_count D b = list_sum (map (fun a => uses D a b) (seq 0 (fresh D)))) /\
  (forall b, is_used D b = true <-> exists a, 0 < uses D a b).
Proof. exact (mirror_cases D). Qed.
Print Assumptions C15_mirror.
Example C15_case : reachable doc /\ linked_nodes doc 7 = [3; 4; 8] /\ uses doc 4 7 = 1 /\ uses doc 5 7 = 0.
Proof. split; [exact doc_reachable|]. vm_compute. tauto. Qed.

(* C16: no node links to itself or to one of its users. *)
Theorem C16_no_loops D a b : reachable D -> 0 < uses D a b -> a <> b /\ uses D b a = 0.
Proof. exact (fun H => no_loops D H a b). Qed.
Print Assumptions C16_no_loops.
Example C16_case : reachable doc /\ uses doc 8 7 = 1.
Proof. split; [exact doc_reachable|]. vm_compute. reflexivity. Qed.

(* C17: no panic. *)
Theorem C17_never_panics D n : reachable D ->
  (forall name k, remove_attribute n name D <> Panic k) /\
  (is_element D n = true -> forall a k, set_attribute_checked n a D <> Panic k).
Proof. exact (never_panics D n). Qed.
Print Assumptions C17_never_panics.
Example C17_case : reachable doc /\ is_element doc 3 = true /\
  exists D', remove_attribute 3 (QId A_Fill) doc = Ok D' /\ linked_nodes D' 7 = [4; 8].
Proof. split; [exact doc_reachable|]. split; [vm_compute; reflexivity|]. eexists. split; vm_compute; reflexivity. Qed.

(* C18: the shape of a stored link, right after the call and ever after. *)
Theorem C18_stored D n a D' : reachable D -> set_attribute_checked n a D = Ok (D', ROk) ->
  attrs_get_value (attributes D' n) (a_name a) = Some (shape (a_name a) (a_value a)).
Proof. exact (stored_value D n a D'). Qed.
Print Assumptions C18_stored.
Theorem C18_always D n a : reachable D -> In a (attributes D n) -> a_value a = shape (a_name a) (a_value a).
Proof. exact (fun H => shape_cases D H n a). Qed.
Print Assumptions C18_always.
Example C18_case : reachable doc /\
  (exists D', set_attribute_checked 3 (mkAttr (QId A_Mask) (VLink 8)) doc = Ok (D', ROk)) /\
  shape (QId A_Mask) (VLink 8) = VFuncLink 8 /\
  In (mkAttr (QId A_Fill) (VPaint 7 (Some FNone))) (attributes doc 3).
Proof.
  split; [exact doc_reachable|]. split; [eexists; vm_compute; reflexivity|]. split; [reflexivity|].
  vm_compute. tauto.
Qed.
