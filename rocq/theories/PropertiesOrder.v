(* C91: nothing depends on the order in which SVG attributes and users are kept. *)
From Coq Require Import List Bool PeanoNat NArith String Sorting.Permutation.
From Verif Require Import Base Ids Links Tree Data Attrs Slab NodeApi AttrSpec Doc History HistoryProofs ApiProofs Replay Samples TextSamples
  Writer WriterSamples UndoSpec UndoProofs OrderSpec OrderProofs OrderWrite.
Import ListNotations.
Open Scope list_scope.

(* Two documents that differ in the order of attributes and users only: a call that is possible on the one is possible
   on the other, it ends in the same way, and afterwards the documents again differ in the order only. *)
Theorem C91_step o D D' : reachable D -> reachable D' -> akin D D' -> legal o D -> fair o ->
  legal o D' /\ same_outcome akin (step o D) (step o D').
Proof. exact (step_api o D D'). Qed.
Print Assumptions C91_step.
(* The same for all sequences of calls. *)
Theorem C91_history l D D' D1 : reachable D -> reachable D' -> akin D D' -> Forall fair l -> calls l D D1 ->
  exists D1', calls l D' D1' /\ akin D1 D1'.
Proof. exact (history_api l D D' D1). Qed.
Print Assumptions C91_history.
(* The calls return the same values. *)
Theorem C91_results D D' : reachable D -> reachable D' -> akin D D' -> forall n, exists_node D n ->
  (forall a, (forall t, link_target (a_value a) = Some t -> exists_node D t) ->
     same_outcome (fun r r' => snd r' = snd r) (set_attribute_checked n a D) (set_attribute_checked n a D')) /\
  same_outcome (fun r r' => fst r' = fst r) (copy_node n D) (copy_node n D') /\
  same_outcome (fun r r' => fst r' = fst r) (copy_node_deep n D) (copy_node_deep n D') /\
  (forall f, fair (ODrain n f) -> same_outcome (fun r r' => snd r' = snd r) (drain n f D) (drain n f D')) /\
  (forall x, has_attribute D' n x = has_attribute D n x /\ attrs_get (attributes D' n) x = attrs_get (attributes D n) x) /\
  is_used D' n = is_used D n /\ uses_count D' n = uses_count D n.
Proof. exact (results_api D D'). Qed.
Print Assumptions C91_results.
Theorem C91_svg_element D D' : reachable D -> reachable D' -> akin D D' -> svg_element D' = svg_element D.
Proof. exact (svg_element_api D D'). Qed.
Print Assumptions C91_svg_element.
(* They are written in the same way, if the attributes with other names are in the same order. *)
Theorem C91_written W D D' : reachable D -> reachable D' -> akin D D' ->
  (forall n, exists_node D n -> custom_attrs D' n = custom_attrs D n) -> write_dom W D' = write_dom W D.
Proof. exact (written_api W D D'). Qed.
Print Assumptions C91_written.
(* So no later call can tell that calls have been undone (C88). *)
Theorem C91_undone l D D' D1 : reachable D -> reachable D' -> as_before D D' ->
  (forall n, exists_node D' n <-> exists_node D n) -> Forall fair l -> calls l D D1 ->
  exists D1', calls l D' D1' /\ akin D1 D1'.
Proof. exact (fun H H' B E => history_api l D D' D1 H H' (before_akin D D' B E)). Qed.
Print Assumptions C91_undone.

(* The order of attributes with other names does show. *)
Definition custom_a : attr := mkAttr (QName (lit "a")) (VString (lit "1")).
Definition custom_b : attr := mkAttr (QName (lit "b")) (VString (lit "2")).
Definition ab_ops : list op := [OCreateElement (QId E_Svg); OAppend 0 1; OSetAttribute 1 custom_a; OSetAttribute 1 custom_b].
Definition ba_ops : list op := [OCreateElement (QId E_Svg); OAppend 0 1; OSetAttribute 1 custom_b; OSetAttribute 1 custom_a].
Definition ab_doc : dom := get (run all_check ab_ops).
Definition ba_doc : dom := get (run all_check ba_ops).
Tactic Notation "small" ident(n) ident(Hn) int_or_var(k) := do k (destruct n as [|n]; [vm_compute; try reflexivity; try tauto|]);
  exfalso; apply Nat.leb_le in Hn; vm_compute in Hn; discriminate.
Theorem C91_custom_order_shows : exists W D D', reachable D /\ reachable D' /\ akin D D' /\ write_dom W D' <> write_dom W D.
Proof.
  exists sample_writers, ab_doc, ba_doc. split; [exact (sample_reachable ab_ops eq_refl)|]. split; [exact (sample_reachable ba_ops eq_refl)|].
  split; [|vm_compute; discriminate].
  split; try (intros n Hn; small n Hn 2).
  - intros n. replace (exists_node ba_doc n) with (exists_node ab_doc n) by (vm_compute; reflexivity). tauto.
  - vm_compute. reflexivity.
  - intros n Hn. do 2 (destruct n as [|n]; [vm_compute; first [reflexivity | apply perm_swap]|]). exfalso. apply Nat.leb_le in Hn. vm_compute in Hn. discriminate.
Qed.
Print Assumptions C91_custom_order_shows.

(* Two documents whose SVG attributes and users are in different order. *)
Definition paint_fill (t : nid) : attr := mkAttr (QId A_Fill) (VPaint t None).
Definition paint_stroke (t : nid) : attr := mkAttr (QId A_Stroke) (VPaint t None).
Definition base_ops : list op :=
  [OCreateElement (QId E_Svg); OAppend 0 1; OCreateElement (QId E_LinearGradient); OSetId 2 (lit "lg"); OAppend 1 2;
   OCreateElement (QId E_Rect); OAppend 1 3; OCreateElement (QId E_Circle); OAppend 1 4].
Definition one_ops : list op := base_ops ++ [OSetAttribute 3 (paint_fill 2); OSetAttribute 3 (paint_stroke 2); OSetAttribute 4 (paint_fill 2)].
Definition two_ops : list op := base_ops ++ [OSetAttribute 4 (paint_fill 2); OSetAttribute 3 (paint_stroke 2); OSetAttribute 3 (paint_fill 2)].
Definition one_doc : dom := get (run all_check one_ops).
Definition two_doc : dom := get (run all_check two_ops).
Definition then_ops : list op := [OCopyNodeDeep 1; ODrain 0 is_used; ORemoveNode 2].
Example C91_case : reachable one_doc /\ reachable two_doc /\ akin one_doc two_doc /\ exists_node one_doc 3 /\
  attributes one_doc 3 <> attributes two_doc 3 /\ linked_nodes one_doc 2 = [3; 3; 4] /\ linked_nodes two_doc 2 = [4; 3; 3] /\
  (forall n, exists_node one_doc n -> custom_attrs two_doc n = custom_attrs one_doc n) /\
  Forall fair then_ops /\ exists D1, calls then_ops one_doc D1.
Proof.
  assert (R1 : reachable one_doc) by exact (sample_reachable one_ops eq_refl).
  assert (R2 : reachable two_doc) by exact (sample_reachable two_ops eq_refl).
  split; [exact R1|]. split; [exact R2|]. split; [|split; [|split; [|split; [|split; [|split; [|split]]]]]].
  - split; try (intros n Hn; small n Hn 5).
    + intros n. replace (exists_node two_doc n) with (exists_node one_doc n) by (vm_compute; reflexivity). tauto.
    + vm_compute. reflexivity.
    + intros n Hn. do 5 (destruct n as [|n]; [vm_compute; first [reflexivity | apply perm_swap]|]). exfalso. apply Nat.leb_le in Hn. vm_compute in Hn. discriminate.
    + intros n Hn. do 5 (destruct n as [|n]; [vm_compute; first [exact (perm_nil _) | exact (Permutation_app_comm [4] [3; 3])]|]).
      exfalso. apply Nat.leb_le in Hn. vm_compute in Hn. discriminate.
  - apply Nat.leb_le. vm_compute. reflexivity.
  - vm_compute. discriminate.
  - vm_compute. reflexivity.
  - vm_compute. reflexivity.
  - intros n Hn. small n Hn 5.
  - repeat constructor; try exact Logic.I. intros D D' H H' A x Hx. unfold is_used.
    pose proof (Permutation_length (ak_users D D' A x Hx)) as P. destruct (linked_nodes D' x), (linked_nodes D x); easy.
  - eexists. eapply calls_more; [apply legalb_ok; vm_compute; reflexivity|vm_compute; reflexivity|].
    eapply calls_more; [apply legalb_ok; vm_compute; reflexivity|vm_compute; reflexivity|].
    eapply calls_more; [apply legalb_ok; vm_compute; reflexivity|vm_compute; reflexivity|]. constructor.
Qed.
