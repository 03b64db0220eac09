(* Concrete histories: a list of calls is replayed with all side conditions checked, so that the
   resulting document is reachable. *)
From Coq Require Import List Bool PeanoNat NArith Lia.
From Verif Require Import Base Ids Links Tree Iter Data Attrs Slab NodeApi Doc History AttrFacts.
Import ListNotations.

Definition plainb (o : op) (D : dom) : bool :=
  match o with
  | OAttributeMut n name a =>
      match link_target (a_value a) with Some _ => false | None => true end &&
      match attrs_get (attributes D n) name with
      | Some old => match link_target (a_value old) with Some _ => false | None => true end
      | None => true
      end &&
      (aname_eqb (a_name a) name || negb (has_attribute D n (a_name a)))
  | _ => true
  end.
Definition legalb (o : op) (D : dom) : bool :=
  forallb (fun n => Nat.ltb n (fresh D)) (handles o) && plainb o D.
Definition no_cycleb (o : op) (D : dom) : bool :=
  match o with
  | OAppend p n | OPrepend p n | OInsertAfter p n | OInsertBefore p n =>
      match ancestors (enough D) (lk D) p with Ok l => negb (mem n l) | _ => false end
  | _ => true
  end.
Definition orderlyb (o : op) (D : dom) : bool :=
  forallb (fun n => match storage_key D n with Some _ => true | None => false end) (handles o) &&
  match o with
  | OSetAttribute _ a | OSetAttributeChecked _ a | OSetAttributeIfNone _ a =>
      match link_target (a_value a), a_name a with Some _, QName _ => false | _, _ => true end
  | _ => true
  end.
Definition leafyb (o : op) (D : dom) : bool :=
  match o with
  | OAppend p n | OPrepend p n | OInsertAfter p n | OInsertBefore p n =>
      match first_child (lk D) n with None => negb (Nat.eqb n (droot D)) | Some _ => false end
  | _ => true
  end.

Fixpoint replay (check : op -> dom -> bool) (ops : list op) (D : dom) : res dom :=
  match ops with
  | [] => Ok D
  | o :: t => if legalb o D && check o D then D <- step o D ;; replay check t D else Panic PAssert
  end.
Definition run (check : op -> dom -> bool) (ops : list op) : res dom :=
  D <- new_document ;; replay check ops D.

Definition unchecked (_ : op) (_ : dom) : bool := true.
Definition tame_check : op -> dom -> bool := no_cycleb.
Definition orderly_check (o : op) (D : dom) : bool := no_cycleb o D && orderlyb o D.

Lemma legalb_ok o D : legalb o D = true -> legal o D.
Proof.
  intros H. unfold legalb in H. apply andb_true_iff in H. destruct H as (H & Hp). split.
  - intros n Hn. rewrite forallb_forall in H. apply H in Hn. now apply Nat.ltb_lt.
  - clear H. destruct o; cbn in *; try exact I. apply andb_true_iff in Hp. destruct Hp as (Hp & H3).
    apply andb_true_iff in Hp. destruct Hp as (H1 & H2). split; [now destruct (link_target (a_value a))|].
    split.
    + intros old Ho. rewrite Ho in H2. now destruct (link_target (a_value old)).
    + apply orb_true_iff in H3. rewrite negb_true_iff in H3. destruct H3 as [H3|H3]; [left|now right].
      now apply aname_eqb_eq.
Qed.

Lemma collect_above L n : forall fuel s l, simple_collect fuel (parent L) s = Ok l ->
  forall p, s = Some p -> above L n p -> In n l.
Proof.
  induction fuel as [|fuel IH]; intros s l H p -> Ha; [easy|]. cbn in H.
  destruct (simple_collect fuel (parent L) (parent L p)) as [l'| |] eqn:E; cbn in H; try easy.
  injection H as <-. destruct Ha as [|a m q Hq Ha]; [now left|]. right. now apply (IH _ _ E q).
Qed.

Lemma no_cycleb_ok o D : no_cycleb o D = true -> no_cycle_made o D.
Proof.
  assert (H : forall p n, match ancestors (enough D) (lk D) p with Ok l => negb (mem n l) | _ => false end = true ->
    ~ above (lk D) n p).
  { intros p n H Ha. destruct (ancestors (enough D) (lk D) p) as [l| |] eqn:E; try easy.
    apply (collect_above (lk D) n _ _ l E p eq_refl) in Ha. unfold mem in H.
    apply negb_true_iff in H. assert (existsb (Nat.eqb n) l = true); [|congruence].
    apply existsb_exists. exists n. split; [easy|]. apply Nat.eqb_refl. }
  destruct o; cbn; auto.
Qed.

Lemma orderlyb_ok o D : orderlyb o D = true -> orderly o D.
Proof.
  unfold orderlyb, orderly. intros H. apply andb_true_iff in H. destruct H as (H1 & H2). split.
  - rewrite forallb_forall in H1. intros n Hn. apply H1 in Hn. now destruct (storage_key D n).
  - assert (Hs : forall a, match link_target (a_value a), a_name a with Some _, QName _ => false | _, _ => true end = true -> svg_named a).
    { intros a Ha Ht. destruct (link_target (a_value a)); [|easy]. destruct (a_name a); [eauto|easy]. }
    destruct o; auto.
Qed.

Lemma replay_ind (P : dom -> Prop) check : 
  (forall o D D', P D -> legal o D -> check o D = true -> step o D = Ok D' -> P D') ->
  forall ops D D', P D -> replay check ops D = Ok D' -> P D'.
Proof.
  intros Hs. induction ops as [|o ops IH]; intros D D' Hp H; cbn in H; [now injection H as <-|].
  destruct (legalb o D && check o D) eqn:E; [|easy]. apply andb_true_iff in E. destruct E as (E1 & E2).
  destruct (step o D) as [D1| |] eqn:E3; cbn in H; try easy.
  apply (IH D1 D'); [|easy]. apply (Hs o D D1); auto using legalb_ok.
Qed.

Lemma run_ind (P : dom -> Prop) check : (forall D, new_document = Ok D -> P D) ->
  (forall o D D', P D -> legal o D -> check o D = true -> step o D = Ok D' -> P D') ->
  forall ops D, run check ops = Ok D -> P D.
Proof.
  intros H0 Hs ops D H. unfold run in H. destruct new_document as [D0| |] eqn:E; try easy.
  cbn [bind] in H. apply (replay_ind P check Hs ops D0 D (H0 D0 eq_refl) H).
Qed.

Theorem run_reachable ops D : run unchecked ops = Ok D -> reachable D.
Proof. apply run_ind; [apply reach_new|]. intros o D1 D2 H1 H2 _ H3. eapply reach_step; eauto. Qed.
Theorem run_tame ops D : run tame_check ops = Ok D -> reachable_tame D.
Proof.
  apply run_ind; [apply tame_new|]. intros o D1 D2 H1 H2 Hc H3. eapply tame_step; eauto. now apply no_cycleb_ok.
Qed.
Theorem run_orderly ops D : run orderly_check ops = Ok D -> reachable_orderly D.
Proof.
  apply run_ind; [apply ord_new|]. intros o D1 D2 H1 H2 Hc H3. unfold orderly_check in Hc.
  apply andb_true_iff in Hc. destruct Hc. eapply ord_step; eauto using no_cycleb_ok, orderlyb_ok.
Qed.

(* Getting a document out of a successful run. *)
Definition get (r : res dom) : dom := match r with Ok D => D | _ => pre_dom end.

Theorem run_leafy ops D : run leafyb ops = Ok D -> reachable_leafy D.
Proof.
  apply run_ind; [apply leafy_new|]. intros o D1 D2 H1 H2 Hc H3. eapply leafy_step; eauto.
  destruct o; cbn in *; try easy; destruct (first_child (lk D1) n); try easy;
    (split; [easy|]); now apply negb_true_iff, Nat.eqb_neq in Hc.
Qed.
