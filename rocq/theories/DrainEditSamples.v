(* Closures for drain that edit nodes. *)
From Coq Require Import List Bool PeanoNat NArith Lia String.
From Verif Require Import Base Ids Links Tree ForestSpec TreeProofs ForestFacts Data Attrs Slab NodeApi Doc History Replay InvProofs HistoryProofs
  TreeSpec TreeApi ApiProofs AttrSpec Samples TextSamples DrainEdit DrainEditSpec DrainEditProofs.
Import ListNotations.
Open Scope list_scope.

Definition call (o : op) (b : bool) (D : dom) : res (bool * dom) := D <- step o D ;; Ok (b, D).
Lemma call_edits ok o b D r : (legal o D /\ ok o D) -> call o b D = Ok r -> edits ok D (snd r).
Proof.
  intros (Hl & Ho) H. unfold call in H. destruct (step o D) as [D1| |] eqn:E; try discriminate. injection H as <-. cbn [snd].
  apply (edits_call ok D D o D1); [apply edits_none|exact Ho|exact Hl|exact E].
Qed.

(* The closure takes gradients out of the tree itself, and tells drain to remove them. *)
Definition cut_gradients : closure := fun D n =>
  if has_tag_name D n (QId E_LinearGradient) && Nat.ltb n (fresh D) then call (ODetach n) true D else Ok (false, D).
Lemma cut_gradients_only : only tame_edit cut_gradients.
Proof.
  intros D n b D' H. unfold cut_gradients in H. destruct (_ && _) eqn:E; [|injection H as <- <-; apply edits_none].
  apply andb_true_iff in E. destruct E as (_ & E). apply Nat.ltb_lt in E.
  apply (call_edits tame_edit (ODetach n) true D (b, D')); [|exact H].
  split; [split; [intros m [<-|[]]; exact E|exact Logic.I]|split; exact Logic.I].
Qed.

(* The closure moves each node to the front of its siblings and keeps it. *)
Definition to_front : closure := fun D n =>
  match parent (lk D) n with
  | Some p =>
      if Nat.ltb n (fresh D) && Nat.ltb p (fresh D) && negb (Nat.eqb p n) then
        D <- step (ODetach n) D ;; call (OPrepend p n) false D
      else Ok (false, D)
  | None => Ok (false, D)
  end.
Lemma to_front_only : only any_edit to_front.
Proof.
  intros D n b D' H. unfold to_front in H. destruct (parent (lk D) n) as [p|]; [|injection H as <- <-; apply edits_none].
  destruct (_ && _ && _) eqn:E; [|injection H as <- <-; apply edits_none].
  apply andb_true_iff in E. destruct E as (E & _). apply andb_true_iff in E. destruct E as (E1 & E2).
  apply Nat.ltb_lt in E1, E2. destruct (step (ODetach n) D) as [D1| |] eqn:Es; try discriminate. cbn [bind] in H.
  assert (H1 : edits any_edit D D1).
  { apply (edits_call any_edit D D (ODetach n) D1); [apply edits_none|exact Logic.I| |exact Es].
    split; [intros m [<-|[]]; exact E1|exact Logic.I]. }
  apply (edits_trans any_edit D D1); [exact H1|]. apply (call_edits any_edit (OPrepend p n) false D1 (b, D')); [|exact H].
  assert (Ef : fresh D1 = fresh D).
  { cbn [step] in Es. unfold on_links in Es. destruct (detach [] n (lk D)); try discriminate. now injection Es as <-. }
  split; [|exact Logic.I]. split; [|exact Logic.I].
  intros m [<-|[<-|[]]]; unfold exists_node; rewrite Ef; assumption.
Qed.

Definition pair_ops : list op :=
  [OCreateElement (QId E_G); OAppend 0 1; OCreateElement (QId E_Rect); OAppend 0 2].
Definition pair : dom := get (run all_check pair_ops).
Definition pair_tame : reachable_tame pair := sample_tame pair_ops eq_refl.

Definition both (F : forest) (x y : nid) : Prop :=
  (children_of F 0 = [x; y] \/ children_of F 0 = [y; x]) /\ children_of F x = [] /\ children_of F y = [].
Lemma front_step D F x y : (x, y) = (1, 2) \/ (x, y) = (2, 1) -> 2 < fresh D -> Rep (lk D) F -> both F x y ->
  exists L F', to_front D x = Ok (false, with_lk L D) /\ Rep L F' /\ both F' y x /\
    next_sibling L x = Some y /\ has_children L x = false.
Proof.
  intros Hxy Hf R (H0 & Hx & Hy). pose proof (r_wf _ _ R) as W.
  assert (N1 : Nat.ltb x (fresh D) = true) by (destruct Hxy as [[= -> ->]|[= -> ->]]; apply Nat.ltb_lt; lia).
  assert (N2 : Nat.ltb 0 (fresh D) = true) by (apply Nat.ltb_lt; lia).
  assert (Ex : In x (children_of F 0)) by (destruct H0 as [-> | ->]; cbn; tauto).
  assert (Hp : parent_of F x = Some 0) by (apply (wf_child F W), Ex).
  assert (Hs : siblings_of F x = children_of F 0) by (apply (wf_parent F W), Hp).
  assert (Er : rm x (children_of F 0) = [y] /\ rm x [y] = [y]).
  { split; [|destruct Hxy as [[= -> ->]|[= -> ->]]; reflexivity].
    destruct H0 as [-> | ->]; destruct Hxy as [[= -> ->]|[= -> ->]]; reflexivity. }
  destruct Er as (Er & Er').
  assert (Ec : mem x [] || existsb (fun m => mem m [x]) (adjoining F x) = false).
  { unfold adjoining. rewrite Hs, Hp. destruct H0 as [-> | ->]; destruct Hxy as [[= -> ->]|[= -> ->]]; reflexivity. }
  assert (Ec2 : prepend_conflict [] 0 x (f_detach x F) = false).
  { unfold prepend_conflict, adjoining. cbn [f_detach siblings_of parent_of children_of]. rewrite Nat.eqb_refl.
    change (children_of (f_detach x (f_detach x F)) 0) with (rm x (rm x (children_of F 0))). rewrite Er, Er'.
    destruct Hxy as [[= -> ->]|[= -> ->]]; reflexivity. }
  assert (K0 : children_of (f_prepend 0 x (f_detach x F)) 0 = [x; y]).
  { change (x :: rm x (rm x (children_of F 0)) = [x; y]). now rewrite Er, Er'. }
  assert (Kx : children_of (f_prepend 0 x (f_detach x F)) x = []).
  { destruct Hxy as [[= -> ->]|[= -> ->]]; cbn; rewrite Hx; reflexivity. }
  assert (Ky : children_of (f_prepend 0 x (f_detach x F)) y = []).
  { destruct Hxy as [[= -> ->]|[= -> ->]]; cbn; rewrite Hy; reflexivity. }
  assert (N3 : Nat.eqb 0 x = false) by (destruct Hxy as [[= -> ->]|[= -> ->]]; reflexivity).
  pose proof (detach_refines [] x (lk D) F R) as Hd.
  destruct (_ || _) eqn:Eq in Hd; [pose proof (eq_trans (eq_sym Eq) Ec) as Hz; discriminate Hz|]. clear Eq.
  destruct Hd as (L1 & E1 & R1 & _).
  pose proof (prepend_refines [] 0 x L1 (f_detach x F) R1) as Hr. rewrite N3, Ec2 in Hr. destruct Hr as (L2 & E2 & R2 & _).
  exists L2, (f_prepend 0 x (f_detach x F)). split.
  { unfold to_front, parent. rewrite (r_parent _ _ R), Hp, N1, N2, N3. cbn [andb negb step]. unfold on_links at 1.
    rewrite E1. cbn [bind]. unfold call. cbn [step]. unfold on_links. cbn [lk with_lk]. rewrite E2. reflexivity. }
  split; [exact R2|]. split; [split; [right; exact K0|split; [exact Ky|exact Kx]]|]. pose proof (r_wf _ _ R2) as W2. split.
  - unfold next_sibling. assert (Hc : In x (children_of (f_prepend 0 x (f_detach x F)) 0)) by (rewrite K0; now left).
    rewrite (r_next _ _ R2), (wf_parent _ W2 x 0 (wf_child _ W2 0 x Hc)), K0.
    cbn. now rewrite Nat.eqb_refl.
  - unfold has_children, first_child. now rewrite (r_first _ _ R2), Kx.
Qed.
Lemma front_forever : forall fuel D F x y k, (x, y) = (1, 2) \/ (x, y) = (2, 1) -> 2 < fresh D -> Rep (lk D) F -> both F x y ->
  e_drain_loop fuel to_front (Some x) (D, k) = Diverge.
Proof.
  induction fuel as [|fuel IH]; intros D F x y k Hxy Hf R Hb; [reflexivity|]. cbn [e_drain_loop fst snd].
  destruct (front_step D F x y Hxy Hf R Hb) as (L & F' & -> & R' & Hb' & Hn & Hc). cbn [bind fst snd lk with_lk].
  rewrite Hc. cbn [bind fst lk with_lk]. rewrite Hn. apply (IH _ F' y x); [|exact Hf|exact R'|exact Hb'].
  destruct Hxy as [[= -> ->]|[= -> ->]]; [now right|now left].
Qed.
Lemma pair_forever fuel : e_drain fuel 0 to_front pair = Diverge.
Proof.
  destruct (reachable_shows pair (tame_reachable _ pair_tame)) as (F & S). pose proof (proj1 (shows_Rep _ _) S) as R.
  unfold e_drain. change (first_child (lk pair) 0) with (Some 1).
  apply (front_forever fuel pair F 1 2 0); [now left|apply Nat.ltb_lt; vm_compute; reflexivity|exact R|].
  assert (Ht : tree_at F (T 0 [T 1 []; T 2 []])) by (apply (tree_b_ok pair F _ S); vm_compute; reflexivity).
  inversion Ht as [? ? E Hall]; subst. inversion Hall as [|? ? H1 Hall2]; subst. inversion Hall2 as [|? ? H2 _]; subst.
  split; [left; exact E|]. split; [exact (tree_at_children F _ H1)|exact (tree_at_children F _ H2)].
Qed.

(* The closure takes the fill attribute away and tells drain to remove texts: it moves no node. *)
Definition unpaint : closure := fun D n =>
  if Nat.ltb n (fresh D) then call (ORemoveAttribute n (QId A_Fill)) (has_tag_name D n (QId E_Text)) D else Ok (false, D).
Lemma unpaint_only : only data_edit unpaint.
Proof.
  intros D n b D' H. unfold unpaint in H. destruct (Nat.ltb n (fresh D)) eqn:E; [|injection H as <- <-; apply edits_none].
  apply Nat.ltb_lt in E. apply (call_edits data_edit (ORemoveAttribute n (QId A_Fill)) (has_tag_name D n (QId E_Text)) D (b, D')); [|exact H].
  split; [split; [intros m [<-|[]]; exact E|exact Logic.I]|exact Logic.I].
Qed.
Lemma unpaint_total : total unpaint.
Proof.
  intros D n R Hn. unfold unpaint. apply Nat.ltb_lt in Hn. rewrite Hn. unfold call. cbn [step].
  destruct (reachable_inv D R) as (F & I & _).
  destruct (LinkProofs.remove_attribute_spec n (QId A_Fill) D (iv_link D F I)) as (D' & -> & _). cbn [bind]. now eexists.
Qed.
