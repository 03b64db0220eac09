(* Documents with the same content, made in different ways. *)
From Coq Require Import String List Bool PeanoNat NArith.
From Verif Require Import Base Ids Names Links Tree ForestSpec TreeSpec ForestFacts Data Attrs AttrFacts Slab NodeApi Doc History
  DocSpec Replay InvProofs HistoryProofs TreeApi ApiProofs DocApi Samples Text TextSpec TextSamples Writer WriterSpec WriterSamples
  Parser ParserSpec RoundSpec RoundSamples ResaveSpec.
Import ListNotations.
Open Scope string_scope.
Open Scope nat_scope.
Open Scope list_scope.

Definition custom (n : nid) (s v : string) : op := OSetAttribute n (mkAttr (QName (lit s)) (VString (lit v))).

(* A gradient and a rect that refers to it, and the same with the nodes made and the SVG attributes set
   in another order. *)
Definition made : dom := get (run all_check
  [ OCreateElement (QId E_Svg); OAppend 0 1; OCreateElement (QId E_LinearGradient); OAppend 1 2; OSetId 2 (lit "g");
    OCreateElement (QId E_Rect); OAppend 1 3; OSetAttribute 3 (mkAttr (QId A_Fill) (VPaint 2 (Some FNone)));
    OSetAttribute 3 (mkAttr (QId A_Stroke) VNone); custom 3 "a" "1"; custom 3 "b" "2" ]).
Definition remade : dom := get (run all_check
  [ OCreateElement (QId E_Rect); OSetAttribute 1 (mkAttr (QId A_Stroke) VNone); OCreateElement (QId E_LinearGradient);
    custom 1 "a" "1"; OSetId 2 (lit "g"); OSetAttribute 1 (mkAttr (QId A_Fill) (VPaint 2 (Some FNone))); custom 1 "b" "2";
    OCreateElement (QId E_Svg); OAppend 0 3; OAppend 3 2; OAppend 3 1 ]).
(* The custom attributes the other way round. *)
Definition swapped : dom := get (run all_check
  [ OCreateElement (QId E_Svg); OAppend 0 1; OCreateElement (QId E_LinearGradient); OAppend 1 2; OSetId 2 (lit "g");
    OCreateElement (QId E_Rect); OAppend 1 3; OSetAttribute 3 (mkAttr (QId A_Fill) (VPaint 2 (Some FNone)));
    OSetAttribute 3 (mkAttr (QId A_Stroke) VNone); custom 3 "b" "2"; custom 3 "a" "1" ]).
Definition made_tree : tree := T 0 [T 1 [T 2 []; T 3 []]].
Definition remade_tree : tree := T 0 [T 3 [T 2 []; T 1 []]].

Lemma made_tame : reachable_tame made.
Proof. apply sample_tame. vm_compute. reflexivity. Qed.
Lemma remade_tame : reachable_tame remade.
Proof. apply sample_tame. vm_compute. reflexivity. Qed.
Lemma swapped_tame : reachable_tame swapped.
Proof. apply sample_tame. vm_compute. reflexivity. Qed.

Lemma sample_document D t : reachable_tame D -> textual_b D = true -> tree_b (lk D) t = true -> t_node t = droot D -> document_tree D t.
Proof.
  intros H X B E. destruct (sample_forest D H X) as (F & S & _). exists F. split; [exact S|]. split; [exact (tree_b_ok D F _ S B)|exact E].
Qed.

Ltac same_sides := repeat match goal with
  | H : In _ _ |- _ => progress (vm_compute in H)
  | H : _ \/ _ |- _ => destruct H as [H|H]
  | H : False |- _ => destruct H
  | H : mkAttr _ _ = mkAttr _ _ |- _ => injection H as <- <-
  end.
Ltac same_docs := split; [repeat constructor|];
  intros n n' H; unfold same_place in H; vm_compute in H;
  repeat match goal with
  | H : _ \/ _ |- _ => destruct H as [H|H]
  | H : False |- _ => destruct H
  | H : (_, _) = (_, _) |- _ => injection H as <- <-
  end;
  split; try (vm_compute; reflexivity); intros; try (vm_compute; reflexivity); same_sides;
  eexists; (split; [vm_compute; auto|]); first [apply sv_plain; reflexivity|apply sv_paint; vm_compute; auto].

Lemma made_same : same_document made made_tree remade remade_tree.
Proof. same_docs. Qed.
Lemma made_order : same_order made_tree remade_tree made remade.
Proof.
  intros n n' H. vm_compute in H. repeat destruct H as [H|H]; try easy; injection H as <- <-; vm_compute; reflexivity.
Qed.
Lemma swapped_same : same_document made made_tree swapped made_tree.
Proof. same_docs. Qed.
