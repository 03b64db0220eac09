(* Programs with two documents, for the examples. *)
From Coq Require Import List Bool PeanoNat NArith String.
From Verif Require Import Base Ids Links Tree Data Attrs Slab NodeApi Doc History Replay Samples World WorldSpec.
Import ListNotations.
Open Scope string_scope.

Inductive wcmd := WOpen | WCall (i : nat) (o : op) | WDrop (i : nat).

Definition no_closure (o : op) : bool := match o with ODrain _ _ => false | _ => true end.
Definition ownb (i : nat) (o : op) (W : world) : bool :=
  no_closure o && match view W i with Some D => legalb o D | None => false end &&
  forallb (fun n => Nat.eqb (w_owner W n) i) (handles o).
Definition anyb (i : nat) (o : op) (W : world) : bool :=
  match view W i with Some D => legalb o D | None => false end.

Lemma ownb_sound i o W : ownb i o W = true -> own_nodes i o W.
Proof.
  unfold ownb. rewrite !andb_true_iff. intros ((Hc & Hl) & Hh). split; [now destruct o|].
  destruct (view W i) as [D|]; [|easy]. exists D. split; [easy|]. split; [now apply legalb_ok|].
  intros n Hn. rewrite forallb_forall in Hh. now apply Nat.eqb_eq, Hh.
Qed.
Lemma anyb_sound i o W : anyb i o W = true -> any_nodes i o W.
Proof. unfold anyb. destruct (view W i) as [D|] eqn:E; [|easy]. intros H. exists D. split; [easy|]. now apply legalb_ok. Qed.

Fixpoint wrun (ok : nat -> op -> world -> bool) (l : list wcmd) (W : world) : res world :=
  match l with
  | [] => Ok W
  | WOpen :: t => W <- open_doc W ;; wrun ok t W
  | WCall i o :: t => if ok i o W then W <- call i o W ;; wrun ok t W else Diverge
  | WDrop i :: t => W <- drop_doc i W ;; wrun ok t W
  end.
Lemma wrun_sound okb (ok : nat -> op -> world -> Prop) : (forall i o W, okb i o W = true -> ok i o W) ->
  forall l W W', wreach ok W -> wrun okb l W = Ok W' -> wreach ok W'.
Proof.
  intros Hs. induction l as [|c l IH]; intros W W' HW H; [now injection H as <-|]. destruct c; cbn [wrun] in H.
  - destruct (open_doc W) as [W1| |] eqn:E; cbn [bind] in H; try discriminate H. apply (IH W1); [|easy]. now apply (wr_open ok W).
  - destruct (okb i o W) eqn:Eo; [|easy]. destruct (call i o W) as [W1| |] eqn:E; cbn [bind] in H; try discriminate H.
    apply (IH W1); [|easy]. apply (wr_call ok W i o); auto.
  - destruct (drop_doc i W) as [W1| |] eqn:E; cbn [bind] in H; try discriminate H. apply (IH W1); [|easy]. now apply (wr_drop ok W i).
Qed.
Definition wget (r : res world) : world := match r with Ok W => W | _ => no_world end.
Lemma wget_ok r : is_ok r = true -> r = Ok (wget r).
Proof. now destruct r. Qed.

(* Two documents, their calls interleaved: 0 and 1 the roots; of the first document 2 svg, 3 rect, 4
   linearGradient id=a, fill of 3 = 4; of the second 5 svg, 6 circle, 7 linearGradient id=a, fill of 6 = 7. *)
Definition two_cmds : list wcmd :=
  [ WOpen; WOpen;
    WCall 0 (OCreateElement (QId E_Svg)); WCall 0 (OAppend 0 2);
    WCall 0 (OCreateElement (QId E_Rect)); WCall 0 (OCreateElement (QId E_LinearGradient));
    WCall 1 (OCreateElement (QId E_Svg)); WCall 1 (OCreateElement (QId E_Circle)); WCall 1 (OCreateElement (QId E_LinearGradient));
    WCall 0 (OAppend 2 3); WCall 1 (OAppend 1 5); WCall 1 (OAppend 5 6); WCall 0 (OAppend 2 4); WCall 1 (OAppend 5 7);
    WCall 1 (OSetId 7 (lit "a")); WCall 0 (OSetId 4 (lit "a"));
    WCall 0 (OSetAttribute 3 (mkAttr (QId A_Fill) (VPaint 4 None)));
    WCall 1 (OSetAttribute 6 (mkAttr (QId A_Fill) (VPaint 7 None))) ].
Definition two : world := wget (wrun ownb two_cmds no_world).
Lemma two_run : wrun ownb two_cmds no_world = Ok two.
Proof. apply wget_ok. vm_compute. reflexivity. Qed.
Lemma two_own : wreach own_nodes two.
Proof. exact (wrun_sound ownb own_nodes ownb_sound two_cmds no_world two (wr_none _) two_run). Qed.

(* The same, then the circle and the gradient of the second document are moved into the tree of the first,
   and its rect gets a stroke that links to the gradient of the second. *)
Definition mixed_cmds : list wcmd :=
  (two_cmds ++ [ WCall 0 (OAppend 2 6); WCall 0 (OAppend 2 7); WCall 0 (OSetAttribute 3 (mkAttr (QId A_Stroke) (VPaint 7 None))) ])%list.
Definition mixed : world := wget (wrun anyb mixed_cmds no_world).
Lemma mixed_run : wrun anyb mixed_cmds no_world = Ok mixed.
Proof. apply wget_ok. vm_compute. reflexivity. Qed.
Lemma mixed_any : wreach any_nodes mixed.
Proof. exact (wrun_sound anyb any_nodes anyb_sound mixed_cmds no_world mixed (wr_none _) mixed_run). Qed.
