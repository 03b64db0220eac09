(* Concrete documents for the examples beside the theorems. *)
From Coq Require Import List Bool PeanoNat NArith String.
From Verif Require Import Base Ids Links Tree Iter ForestSpec TreeSpec Data Attrs Slab NodeApi Doc History
  DocSpec Replay TreeProofs ForestFacts HistoryProofs RootProofs TreeApi ApiProofs DocApi TidyProofs.
Import ListNotations.
Open Scope string_scope.

(* Replaying with a weaker check. *)
Lemma replay_weaken (c c' : op -> dom -> bool) : (forall o D, c o D = true -> c' o D = true) ->
  forall ops D D', replay c ops D = Ok D' -> replay c' ops D = Ok D'.
Proof.
  intros Hc. induction ops as [|o ops IH]; intros D D' H; cbn in *; [easy|].
  destruct (legalb o D); cbn in *; [|easy]. destruct (c o D) eqn:E; [|easy]. rewrite (Hc o D E).
  destruct (step o D); cbn in *; try easy. now apply IH.
Qed.

Definition all_check (o : op) (D : dom) : bool := orderly_check o D && leafyb o D.

Definition is_ok {A} (r : res A) : bool := match r with Ok _ => true | _ => false end.
Lemma get_ok r : is_ok r = true -> r = Ok (get r).
Proof. now destruct r. Qed.

(* To show that a call returns a document with some properties, by computation. *)
Lemma ok_case {A} (r : res A) (P : A -> Prop) :
  match r with Ok x => P x | _ => False end -> exists x, r = Ok x /\ P x.
Proof. destruct r; [eauto|easy..]. Qed.
Lemma ok_case_fst {A B} (r : res (A * B)) (b : B) (P : A -> Prop) :
  match r with Ok (x, y) => y = b /\ P x | _ => False end -> exists x, r = Ok (x, b) /\ P x.
Proof. destruct r as [[x y]| |]; [|easy..]. intros (-> & H). eauto. Qed.
Lemma ok_case_snd {A B} (r : res (A * B)) (a : A) (P : B -> Prop) :
  match r with Ok (x, y) => x = a /\ P y | _ => False end -> exists y, r = Ok (a, y) /\ P y.
Proof. destruct r as [[x y]| |]; [|easy..]. intros (-> & H). eauto. Qed.

Section Sample.
  Context (ops : list op) (Hok : is_ok (run all_check ops) = true).
  Let D := get (run all_check ops).
  Lemma sample_run : run all_check ops = Ok D.
  Proof. now apply get_ok. Qed.
  Lemma sample_weaken c : (forall o D, all_check o D = true -> c o D = true) -> run c ops = Ok D.
  Proof.
    intros Hc. pose proof sample_run as H. unfold run in *. destruct new_document; try easy. cbn [bind] in *.
    now apply (replay_weaken all_check c).
  Qed.
  Lemma sample_orderly : reachable_orderly D.
  Proof. apply (run_orderly ops). apply sample_weaken. intros o D' H. now apply andb_true_iff in H. Qed.
  Lemma sample_leafy : reachable_leafy D.
  Proof. apply (run_leafy ops). apply sample_weaken. intros o D' H. now apply andb_true_iff in H. Qed.
  Lemma sample_tame : reachable_tame D.
  Proof. apply orderly_tame, sample_orderly. Qed.
  Lemma sample_reachable : reachable D.
  Proof. apply tame_reachable, sample_tame. Qed.
  Lemma sample_acyclic : acyclic_dom D.
  Proof. apply tame_acyclic, sample_tame. Qed.
End Sample.

(* 0 root, 1 svg, 2 g, 3 rect fill=url(#lg), 4 circle stroke=url(#lg), 5 text, 6 "hi",
   7 linearGradient id=lg, 8 linearGradient id=lg2 href=#lg *)
Definition doc_ops : list op :=
  [ OCreateElement (QId E_Svg); OAppend 0 1;
    OCreateElement (QId E_G); OAppend 1 2;
    OCreateElement (QId E_Rect); OAppend 2 3;
    OCreateElement (QId E_Circle); OAppend 2 4;
    OCreateElement (QId E_Text); OAppend 1 5;
    OCreateNode NText (lit "hi"); OAppend 5 6;
    OCreateElement (QId E_LinearGradient); OAppend 1 7; OSetId 7 (lit "lg");
    OCreateElement (QId E_LinearGradient); OInsertAfter 7 8; OSetId 8 (lit "lg2");
    OSetAttribute 3 (mkAttr (QId A_Fill) (VPaint 7 (Some FNone)));
    OSetAttribute 3 (mkAttr (QId A_Opacity) (VString (lit "0.5")));
    OSetAttribute 4 (mkAttr (QId A_Stroke) (VPaint 7 None));
    OSetAttribute 8 (mkAttr (QId A_Href) (VLink 7)) ].
Definition doc : dom := get (run all_check doc_ops).

Lemma doc_ok : is_ok (run all_check doc_ops) = true.
Proof. vm_compute. reflexivity. Qed.
Definition doc_orderly : reachable_orderly doc := sample_orderly doc_ops doc_ok.
Definition doc_leafy : reachable_leafy doc := sample_leafy doc_ops doc_ok.
Definition doc_tame : reachable_tame doc := sample_tame doc_ops doc_ok.
Definition doc_reachable : reachable doc := sample_reachable doc_ops doc_ok.
Definition doc_acyclic : acyclic_dom doc := sample_acyclic doc_ops doc_ok.

(* A document with a cycle: 1 is the parent of 2 and 2 is the parent of 1. *)
Definition cyclic_ops : list op :=
  [ OCreateElement (QId E_G); OCreateElement (QId E_G); OAppend 1 2; OAppend 2 1 ].
Definition cyclic : dom := get (run unchecked cyclic_ops).
Lemma cyclic_run : run unchecked cyclic_ops = Ok cyclic.
Proof. apply get_ok. vm_compute. reflexivity. Qed.
Lemma cyclic_reachable : reachable cyclic.
Proof. apply (run_reachable cyclic_ops), cyclic_run. Qed.

(* A node that is its own parent: 1, with the children 2, 1. *)
Definition ownp_ops : list op :=
  [ OCreateElement (QId E_G); OCreateElement (QId E_G); OCreateElement (QId E_G); OAppend 1 2; OAppend 1 3;
    OInsertAfter 2 1; ODetach 3 ].
Definition ownp : dom := get (run unchecked ownp_ops).
Lemma ownp_run : run unchecked ownp_ops = Ok ownp.
Proof. apply get_ok. vm_compute. reflexivity. Qed.
Lemma ownp_reachable : reachable ownp.
Proof. apply (run_reachable ownp_ops), ownp_run. Qed.

(* remove_node runs forever on the cyclic document. *)
Lemma remove_links_none n D : attributes D n = [] -> linked_nodes D n = [] -> remove_links n D = Ok D.
Proof.
  intros E1 E2. unfold remove_links. rewrite E1. change (unlink_users n (linked_nodes D n) D = Ok D). now rewrite E2.
Qed.
Lemma remove_rec_loop D : remove_links 1 D = Ok D -> remove_links 2 D = Ok D ->
  fst (children_next (lk D) (children (lk D) 1)) = Some 2 -> fst (children_next (lk D) (children (lk D) 2)) = Some 1 ->
  forall fuel, remove_rec fuel 1 D = Diverge /\ remove_rec fuel 2 D = Diverge.
Proof.
  intros L1 L2 C1 C2. induction fuel as [|fuel (IH1 & IH2)]; [split; reflexivity|].
  cbn [remove_rec]. rewrite L1, L2. cbn [bind].
  destruct fuel as [|fuel]; [split; reflexivity|]. cbn [for_children].
  destruct (children_next (lk D) (children (lk D) 1)) as [o1 i1].
  destruct (children_next (lk D) (children (lk D) 2)) as [o2 i2]. cbn [fst] in C1, C2. subst o1 o2.
  rewrite IH1, IH2. split; reflexivity.
Qed.
Lemma remove_rec_cyclic : forall fuel, remove_rec fuel 1 cyclic = Diverge /\ remove_rec fuel 2 cyclic = Diverge.
Proof.
  apply remove_rec_loop; [apply remove_links_none| apply remove_links_none| |]; vm_compute; reflexivity.
Qed.

(* Section-free variants of [doc] for the refutations. *)
Definition named_link_ops : list op :=
  (doc_ops ++ [OSetAttribute 5 (mkAttr (QName (lit "foo")) (VFuncLink 8))])%list.
Definition named_link : dom := get (run tame_check named_link_ops).
Lemma named_link_tame : reachable_tame named_link.
Proof. apply (run_tame named_link_ops). apply get_ok. vm_compute. reflexivity. Qed.

Definition lost_id_ops : list op := (doc_ops ++ [OSetId 7 (lit "")])%list.
Definition lost_id : dom := get (run tame_check lost_id_ops).
Lemma lost_id_tame : reachable_tame lost_id.
Proof. apply (run_tame lost_id_ops). apply get_ok. vm_compute. reflexivity. Qed.

Definition zombie_ops : list op :=
  (doc_ops ++ [ORemoveNode 3; ORemoveNode 7; OSetAttribute 3 (mkAttr (QId A_Fill) (VPaint 7 None))])%list.
Definition zombie : dom := get (run tame_check zombie_ops).
Lemma zombie_tame : reachable_tame zombie.
Proof. apply (run_tame zombie_ops). apply get_ok. vm_compute. reflexivity. Qed.

(* All link targets in [doc] have ids. *)
Definition named_b (D : dom) (n : nid) : bool :=
  forallb (fun a => match link_target (a_value a) with Some t => negb (str_eqb (id_of D t) []) | None => true end)
          (attributes D n).
Lemma named_b_ok D n : named_b D n = true -> targets_named D n.
Proof.
  intros H a t Ha Ht. unfold named_b in H. rewrite forallb_forall in H. specialize (H a Ha). rewrite Ht in H.
  intros E. rewrite E in H. discriminate.
Qed.
Lemma doc_named n : n < 9 -> targets_named doc n.
Proof.
  intros H. apply named_b_ok.
  assert (G : forallb (named_b doc) (seq 0 9) = true) by (vm_compute; reflexivity).
  rewrite forallb_forall in G. apply G. apply in_seq. split; [apply Nat.le_0_l|exact H].
Qed.
