(* C90: what is written depends on what can be seen only. *)
From Coq Require Import List Bool PeanoNat NArith String.
From Verif Require Import Base Ids Links Tree ForestSpec TreeSpec TreeApi Data Attrs Slab NodeApi AttrSpec Doc History DocSpec
  HistoryProofs ApiProofs Replay Samples TextSamples Writer WriterSpec WriterSamples UndoSpec UndoProofs SameSpec SameProofs.
Import ListNotations.
Open Scope list_scope.

(* Two documents with trees of the same contents are written in the same way, however they were made. *)
Theorem C90_same W D D' F F' ts us : reachable D -> reachable D' -> shows (lk D) F -> shows (lk D') F' ->
  tree_at F (T (droot D) ts) -> tree_at F' (T (droot D') us) -> same_tree D D' (T (droot D) ts) (T (droot D') us) ->
  write_dom W D = write_dom W D'.
Proof. exact (same_written W D D' F F' ts us). Qed.
Print Assumptions C90_same.
(* So the output is the same as before when calls have been undone (C88). *)
Theorem C90_before W D D' : reachable D -> reachable D' -> acyclic_dom D -> as_before D D' -> write_dom W D' = write_dom W D.
Proof. exact (before_written W D D'). Qed.
Print Assumptions C90_before.
(* The options for values change values only: the calls of the XML writer are the same up to attribute values, *)
Theorem C90_options W W' D :
  match write_dom W D, write_dom W' D with
  | Ok l, Ok l' => Forall2 same_form l l'
  | Panic p, Panic q => p = q
  | Diverge, Diverge => True
  | _, _ => False
  end.
Proof. exact (options_form W W' D). Qed.
Print Assumptions C90_options.
(* and strings, keywords and references are never changed. *)
Theorem C90_fixed W W' D : (forall n a, In a (attributes D n) -> fixed_text (a_value a)) -> write_dom W D = write_dom W' D.
Proof. exact (options_equal W W' D). Qed.
Print Assumptions C90_fixed.

(* Two histories that lead to documents of the same look. *)
Definition fill_with (t : nid) : attr := mkAttr (QId A_Fill) (VPaint t None).
Definition first_ops : list op :=
  [OCreateElement (QId E_Svg); OAppend 0 1; OCreateElement (QId E_G); OAppend 1 2; OCreateElement (QId E_LinearGradient); OSetId 3 (lit "lg");
   OAppend 1 3; OSetAttribute 2 (fill_with 3)].
Definition second_ops : list op :=
  [OCreateElement (QId E_LinearGradient); OSetId 1 (lit "lg"); OCreateElement (QId E_G); OSetAttribute 2 (fill_with 1);
   OCreateElement (QId E_Svg); OAppend 0 3; OAppend 3 1; OPrepend 3 2].
Definition first_doc : dom := get (run all_check first_ops).
Definition second_doc : dom := get (run all_check second_ops).
Definition first_trees : list tree := [T 1 [T 2 []; T 3 []]].
Definition second_trees : list tree := [T 3 [T 2 []; T 1 []]].
Example C90_case : reachable first_doc /\ reachable second_doc /\
  (exists F, shows (lk first_doc) F /\ tree_at F (T (droot first_doc) first_trees)) /\
  (exists F, shows (lk second_doc) F /\ tree_at F (T (droot second_doc) second_trees)) /\
  same_tree first_doc second_doc (T (droot first_doc) first_trees) (T (droot second_doc) second_trees) /\
  (forall n a, In a (attributes first_doc n) -> fixed_text (a_value a)) /\
  (exists evs, write_dom sample_writers first_doc = Ok evs) /\
  (reachable first_doc /\ acyclic_dom first_doc /\ exists D', reachable D' /\ as_before first_doc D').
Proof.
  assert (R1 : reachable first_doc) by exact (sample_reachable first_ops eq_refl).
  assert (R2 : reachable second_doc) by exact (sample_reachable second_ops eq_refl).
  split; [exact R1|]. split; [exact R2|].
  split. { destruct (reachable_shows _ R1) as (F & S). exists F. split; [exact S|]. apply (tree_b_ok first_doc F _ S). vm_compute. reflexivity. }
  split. { destruct (reachable_shows _ R2) as (F & S). exists F. split; [exact S|]. apply (tree_b_ok second_doc F _ S). vm_compute. reflexivity. }
  split.
  { repeat (first [apply Forall2_nil | apply Forall2_cons | apply st_intro | (vm_compute; reflexivity)]).
    - split; [reflexivity|]. apply sv_paint. vm_compute. reflexivity. }
  split. { intros n a Ha. do 4 (destruct n as [|n]; [vm_compute in Ha; intuition (subst; cbn; auto)|]). vm_compute in Ha. contradiction. }
  split; [eexists; vm_compute; reflexivity|]. split; [exact R1|]. split; [exact (sample_acyclic first_ops eq_refl)|].
  destruct (id_back first_doc 3 (lit "x")) as (D1 & D2 & E1 & E2 & B); [vm_compute; reflexivity|].
  exists D2. split; [|exact B].
  assert (L1 : legal (OSetId 3 (lit "x")) first_doc) by (apply legalb_ok; vm_compute; reflexivity).
  pose proof (reach_step first_doc (OSetId 3 (lit "x")) D1 R1 L1 E1) as R.
  apply (reach_step D1 (OSetId 3 (id_of first_doc 3)) D2 R); [|exact E2]. split; [|exact Logic.I].
  intros m [<-|[]]. unfold set_id in E1. assert (He : is_element first_doc 3 = true) by (vm_compute; reflexivity). rewrite He in E1.
  injection E1 as <-. apply Nat.leb_le. vm_compute. reflexivity.
Qed.
