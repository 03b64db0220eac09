(* C97: the last value counts. *)
From Coq Require Import List Bool PeanoNat NArith String.
From Verif Require Import Base Ids Links Tree ForestSpec TreeSpec TreeApi Data Attrs Slab NodeApi AttrSpec Doc History DocSpec
  HistoryProofs ApiProofs Replay Samples UndoSpec LastValueSpec LastValue.
Import ListNotations.
Open Scope list_scope.

(* Of two calls that set or remove the same attribute of an element only the second one counts: it returns if and only
   if it returns without the first one, and the documents look the same. *)
Theorem C97_attribute D o1 o2 n x D1 : reachable D -> is_element D n = true -> legal o1 D -> legal o2 D ->
  concerns o1 = Some (n, x) -> concerns o2 = Some (n, x) -> step o1 D = Ok D1 ->
  (forall D2, step o2 D1 = Ok D2 -> exists D3, step o2 D = Ok D3 /\ as_before D2 D3) /\
  (forall D3, step o2 D = Ok D3 -> exists D2, step o2 D1 = Ok D2 /\ as_before D2 D3).
Proof. exact (last_value D o1 o2 n x D1). Qed.
Print Assumptions C97_attribute.

(* The same holds for ids, texts and tag names. *)
Theorem C97_setters D n D1 :
  (forall s t, set_id n s D = Ok D1 -> exists D2 D3, set_id n t D1 = Ok D2 /\ set_id n t D = Ok D3 /\ as_before D2 D3) /\
  (forall s t, set_text n s D = Ok D1 -> exists D2 D3, set_text n t D1 = Ok D2 /\ set_text n t D = Ok D3 /\ as_before D2 D3) /\
  (forall s t, t <> QName [] -> set_tag_name n s D = Ok D1 ->
     exists D2 D3, set_tag_name n t D1 = Ok D2 /\ set_tag_name n t D = Ok D3 /\ as_before D2 D3).
Proof. exact (conj (fun s t => last_id D n s t D1) (conj (fun s t => last_text D n s t D1) (fun s t => last_tag D n s t D1))). Qed.
Print Assumptions C97_setters.

(* Of two values given with set_attribute_if_none the first one counts. *)
Theorem C97_if_none D n a b D1 : reachable D -> legal (OSetAttributeIfNone n a) D -> is_element D n = true -> a_name b = a_name a ->
  set_attribute_if_none n a D = Ok D1 -> set_attribute_if_none n b D1 = Ok D1.
Proof. exact (first_if_none D n a b D1). Qed.
Print Assumptions C97_if_none.

(* A link is replaced by another one, and then removed. *)
Definition first_fill : attr := mkAttr (QId A_Fill) (VFuncLink 8).
Definition next_fill : attr := mkAttr (QId A_Fill) (VString (lit "red")).
Example C97_case : reachable doc /\ is_element doc 3 = true /\ legal (OSetAttribute 3 first_fill) doc /\
  legal (OSetAttribute 3 next_fill) doc /\ legal (ORemoveAttribute 3 (QId A_Fill)) doc /\
  concerns (OSetAttribute 3 first_fill) = Some (3, QId A_Fill) /\ concerns (OSetAttribute 3 next_fill) = Some (3, QId A_Fill) /\
  concerns (ORemoveAttribute 3 (QId A_Fill)) = Some (3, QId A_Fill) /\
  (exists D1, step (OSetAttribute 3 first_fill) doc = Ok D1) /\ (exists D1, step (ORemoveAttribute 3 (QId A_Fill)) doc = Ok D1) /\
  (exists D3, step (OSetAttribute 3 next_fill) doc = Ok D3) /\
  (exists D1, set_id 3 (lit "x") doc = Ok D1) /\ (exists D1, set_text 6 (lit "x") doc = Ok D1) /\
  (exists D1, set_tag_name 3 (QId E_Circle) doc = Ok D1) /\
  (exists D1, set_attribute_if_none 4 first_fill doc = Ok D1) /\ legal (OSetAttributeIfNone 4 first_fill) doc /\ is_element doc 4 = true.
Proof.
  split; [exact doc_reachable|]. split; [vm_compute; reflexivity|]. do 3 (split; [apply legalb_ok; vm_compute; reflexivity|]).
  do 3 (split; [reflexivity|]). do 7 (split; [eexists; vm_compute; reflexivity|]).
  split; [apply legalb_ok; vm_compute; reflexivity|]. vm_compute. reflexivity.
Qed.
