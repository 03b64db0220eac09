(* The step over a pair of text nodes, as a function of their two strings, and its properties. *)
From Coq Require Import String List Bool PeanoNat NArith Lia.
From Verif Require Import Base Ids Data Attrs NodeApi ForestSpec Text TextSpec TextFacts.
Import ListNotations.
Open Scope N_scope.
Open Scope list_scope.

Definition starts (s : str) : bool := match s with c :: _ => c =? 32 | [] => false end.
Definition ends (s : str) : bool := starts (rev s).
Lemma starts_iff s : starts s = true <-> exists t, s = 32 :: t.
Proof.
  destruct s as [|c s]; cbn; [split; [easy|now intros (t & H)]|]. rewrite N.eqb_eq. split.
  - intros ->. now exists s.
  - intros (t & H). now injection H.
Qed.
Lemma ends_iff s : ends s = true <-> exists t, s = t ++ [32].
Proof.
  unfold ends. rewrite starts_iff. split.
  - intros (t & H). exists (rev t). rewrite <- (rev_involutive s), H. reflexivity.
  - intros (t & ->). exists (rev t). now rewrite rev_app_distr.
Qed.
Lemma starts_false s : starts s = false <-> no_lead s.
Proof.
  destruct (starts s) eqn:E; split; try easy.
  - apply starts_iff in E. destruct E as (t & ->). intros H. now destruct (H t).
  - intros _ t ->. easy.
Qed.
Lemma ends_false s : ends s = false <-> no_trail s.
Proof. unfold ends. rewrite starts_false, no_trail_rev. easy. Qed.
Lemma bool_iff (a b : bool) : (a = true <-> b = true) -> a = b.
Proof. destruct a, b; intros (H1 & H2); try easy; [now rewrite H1|now rewrite H2]. Qed.
Lemma first_starts s : is_space (first_byte s) = starts s.
Proof. apply bool_iff. now rewrite first_space, starts_iff. Qed.
Lemma last_ends s : is_space (last_byte s) = ends s.
Proof. apply bool_iff. now rewrite last_space, ends_iff. Qed.

(* text.rs:199-240 on strings *)
Definition pure_border (dl : bool) (m1 m2 : xmlspace) (t1 t2 : str) : str * str :=
  if ends t1 && starts t2 then
    if dl then if is_default m2 then (t1, tl t2) else (t1, t2)
    else if is_default m1 && is_default m2 then (removelast t1, t2)
    else if negb (is_default m1) && is_default m2 then (t1, tl t2)
    else (t1, t2)
  else (t1, t2).
Definition pure_ends (f l : bool) (m1 m2 : xmlspace) (s1 s4 : bool) (p : str * str) : str * str :=
  if f && s1 && is_default m1 && negb (is_empty (fst p)) then (tl (fst p), snd p)
  else if l && s4 && negb (is_empty (snd p)) && is_default m2 then (fst p, removelast (snd p)) else p.
Definition pure_last (l : bool) (s2 : bool) (p : str * str) : str * str :=
  if l && s2 && negb (is_empty (fst p)) && is_empty (snd p) && ends (fst p) then (removelast (fst p), snd p) else p.
Definition pure_step (f l dl : bool) (m1 m2 : xmlspace) (t1 t2 : str) : str * str :=
  pure_last l (ends t1) (pure_ends f l m1 m2 (starts t1) (ends t2) (pure_border dl m1 m2 t1 t2)).

Lemma short_tl t : starts t = true -> shortened t (tl t).
Proof. rewrite starts_iff. intros (u & ->). apply shortened_first. Qed.
Lemma short_removelast t : ends t = true -> shortened t (removelast t).
Proof. rewrite ends_iff. intros (u & ->). rewrite removelast_last. apply shortened_last. Qed.
Lemma starts_removelast t : starts t = true -> removelast t <> [] -> starts (removelast t) = true.
Proof. rewrite !starts_iff. intros (u & ->) H. destruct u as [|x u]; [easy|]. exists (removelast (x :: u)). reflexivity. Qed.
Lemma ends_tl t : ends t = true -> tl t <> [] -> ends (tl t) = true.
Proof.
  rewrite !ends_iff. intros (u & ->) H. destruct u as [|x u]; [easy|]. now exists u.
Qed.
Lemma empty_false s : negb (is_empty s) = true -> s <> [].
Proof. now destruct s. Qed.

Lemma border_facts dl m1 m2 t1 t2 : let p := pure_border dl m1 m2 t1 t2 in
  shortened t1 (fst p) /\ shortened t2 (snd p) /\
  (starts t1 = true -> fst p <> [] -> starts (fst p) = true) /\
  (ends t2 = true -> snd p <> [] -> ends (snd p) = true).
Proof.
  unfold pure_border. destruct (ends t1) eqn:E1; [|cbn; split; [apply shortened_refl|split;[apply shortened_refl|easy]]].
  destruct (starts t2) eqn:E2; cbn [andb]; [|cbn; split; [apply shortened_refl|split;[apply shortened_refl|easy]]].
  assert (H1 : shortened t1 t1) by apply shortened_refl. assert (H2 : shortened t2 t2) by apply shortened_refl.
  assert (H3 := short_tl t2 E2). assert (H4 := short_removelast t1 E1).
  assert (H5 := starts_removelast t1). assert (H6 := ends_tl t2).
  destruct dl, m1, m2; cbn [is_default andb negb fst snd]; auto 6.
Qed.
Lemma ends_facts f l m1 m2 t1 t2 p : 
  shortened t1 (fst p) -> shortened t2 (snd p) ->
  (starts t1 = true -> fst p <> [] -> starts (fst p) = true) ->
  (ends t2 = true -> snd p <> [] -> ends (snd p) = true) ->
  let q := pure_ends f l m1 m2 (starts t1) (ends t2) p in shortened t1 (fst q) /\ shortened t2 (snd q).
Proof.
  intros H1 H2 H3 H4. unfold pure_ends.
  destruct (f && starts t1 && is_default m1 && negb (is_empty (fst p))) eqn:E1.
  - rewrite !andb_true_iff in E1. destruct E1 as (((_ & E1) & _) & E2). apply empty_false in E2. cbn.
    split; [|easy]. eapply shortened_trans; [exact H1|]. now apply short_tl, H3.
  - destruct (l && ends t2 && negb (is_empty (snd p)) && is_default m2) eqn:E2; [|easy].
    rewrite !andb_true_iff in E2. destruct E2 as (((_ & E2) & E3) & _). apply empty_false in E3. cbn.
    split; [easy|]. eapply shortened_trans; [exact H2|]. now apply short_removelast, H4.
Qed.
Lemma last_facts l s2 t1 t2 p : shortened t1 (fst p) -> shortened t2 (snd p) ->
  let q := pure_last l s2 p in shortened t1 (fst q) /\ shortened t2 (snd q).
Proof.
  intros H1 H2. unfold pure_last. destruct (l && s2 && _ && _ && ends (fst p)) eqn:E; [|easy].
  rewrite !andb_true_iff in E. destruct E as (_ & E). cbn. split; [|easy].
  eapply shortened_trans; [exact H1|]. now apply short_removelast.
Qed.
Lemma step_short f l dl m1 m2 t1 t2 : let q := pure_step f l dl m1 m2 t1 t2 in shortened t1 (fst q) /\ shortened t2 (snd q).
Proof.
  destruct (border_facts dl m1 m2 t1 t2) as (H1 & H2 & H3 & H4).
  destruct (ends_facts f l m1 m2 t1 t2 _ H1 H2 H3 H4) as (H5 & H6). now apply last_facts.
Qed.

(* ---- strings with something else than spaces *)
Definition solid (s : str) : Prop := exists c, In c s /\ c <> 32.
Lemma solid_ne s : solid s -> s <> [].
Proof. intros (c & H & _) ->. easy. Qed.
Lemma solid_short s t : shortened s t -> solid s -> solid t.
Proof.
  intros (a & b & -> & Ha & Hb) (c & Hc & Hn). rewrite Forall_forall in Ha, Hb. exists c. split; [|easy].
  apply in_app_iff in Hc. destruct Hc as [Hc|Hc]; [now apply Ha in Hc|]. apply in_app_iff in Hc.
  destruct Hc as [Hc|Hc]; [easy|now apply Hb in Hc].
Qed.
Lemma ok2_short s t : shortened s t -> ok2 s = true -> ok2 t = true.
Proof. intros (a & b & -> & _) H. apply ok2_app_r in H. now apply ok2_app_l in H. Qed.
Lemma ok2_app a b : ok2 a = true -> ok2 b = true -> ends a && starts b = false -> ok2 (a ++ b) = true.
Proof.
  intros Ha Hb He. induction a as [|c a IH]; [easy|]. cbn [app]. destruct a as [|d a].
  - cbn [app]. destruct b as [|x b]; [easy|]. rewrite ok2_cons, Hb. unfold ends in He. cbn in He. now rewrite He.
  - cbn [app] in *. rewrite ok2_cons in *. apply andb_true_iff in Ha. destruct Ha as (H1 & H2). rewrite H1. apply IH; [easy|].
    rewrite <- He. f_equal. unfold ends. cbn [rev]. destruct (rev a) as [|y r]; reflexivity.
Qed.
Lemma ends_app a b : b <> [] -> ends (a ++ b) = ends b.
Proof. intros H. unfold ends. rewrite rev_app_distr. destruct (rev b) as [|x r] eqn:E; [|reflexivity].
  apply (f_equal (@rev chr)) in E. rewrite rev_involutive in E. easy. Qed.
Lemma starts_app a b : a <> [] -> starts (a ++ b) = starts a.
Proof. now destruct a. Qed.
Lemma tl_no_lead t : ok2 t = true -> starts t = true -> starts (tl t) = false.
Proof.
  intros H E. apply starts_iff in E. destruct E as (u & ->). cbn [tl]. destruct u as [|d u]; [easy|].
  rewrite ok2_cons in H. cbn. now destruct (d =? 32).
Qed.
Lemma ok2_rev s : ok2 (rev s) = ok2 s.
Proof.
  apply bool_iff. split; intros H.
  - rewrite <- (rev_involutive s). rewrite <- (collapse_id (rev s) H), <- collapse_rev. apply collapse_ok2.
  - rewrite <- (collapse_id s H), <- collapse_rev. apply collapse_ok2.
Qed.
Lemma removelast_no_trail t : ok2 t = true -> ends t = true -> ends (removelast t) = false.
Proof.
  intros H E. apply ends_iff in E. destruct E as (u & ->). rewrite removelast_last. rewrite <- ok2_rev, rev_app_distr in H.
  apply (tl_no_lead (32 :: rev u)); easy.
Qed.
(* the step on two such strings in default mode *)
Definition dstep (f l dl : bool) (t1 t2 : str) := pure_step f l dl Default Default t1 t2.

Lemma border_solid dl t1 t2 : ok2 t1 = true -> ok2 t2 = true -> solid t1 -> solid t2 ->
  let p := pure_border dl Default Default t1 t2 in
  ends (fst p) && starts (snd p) = false /\ (forall a b, nrm (a ++ fst p ++ snd p ++ b) = nrm (a ++ t1 ++ t2 ++ b)) /\
  (starts (fst p) = starts t1) /\ (ends (snd p) = ends t2).
Proof.
  intros O1 O2 S1 S2. unfold pure_border. destruct (ends t1 && starts t2) eqn:E; [|cbn; easy].
  apply andb_true_iff in E. destruct E as (E1 & E2). cbn [is_default andb].
  assert (N : forall a b, nrm (a ++ t1 ++ tl t2 ++ b) = nrm (a ++ t1 ++ t2 ++ b) /\
                          nrm (a ++ removelast t1 ++ t2 ++ b) = nrm (a ++ t1 ++ t2 ++ b)).
  { intros a b. apply ends_iff in E1. apply starts_iff in E2. destruct E1 as (u & ->), E2 as (v & ->).
    rewrite removelast_last. cbn [tl]. pose proof (nrm_double (a ++ u) (v ++ b)) as H.
    rewrite <- !app_assoc in *. cbn [app] in *. split; symmetry; exact H. }
  destruct dl; cbn [fst snd].
  - rewrite (tl_no_lead t2 O2 E2), andb_false_r. split; [easy|]. split; [apply N|]. split; [easy|].
    apply starts_iff in E2. destruct E2 as (v & ->). cbn [tl]. destruct v as [|x v].
    + destruct S2 as (c & [Hc|[]] & Hn). now symmetry in Hc.
    + symmetry. now apply (ends_app [32] (x :: v)).
  - rewrite (removelast_no_trail t1 O1 E1). split; [easy|]. split; [apply N|]. split; [|easy].
    apply ends_iff in E1. destruct E1 as (u & ->). rewrite removelast_last. destruct u as [|x u].
    + destruct S1 as (c & [Hc|[]] & Hn). now symmetry in Hc.
    + reflexivity.
Qed.

Lemma step_solid f l dl t1 t2 : ok2 t1 = true -> ok2 t2 = true -> solid t1 -> solid t2 ->
  let q := dstep f l dl t1 t2 in
  (forall a b, (f = true -> a = []) -> (l = true -> b = []) -> nrm (a ++ fst q ++ snd q ++ b) = nrm (a ++ t1 ++ t2 ++ b)) /\
  (forall a, (f = true -> a = []) -> ok2 (a ++ t1) = true -> ok2 (a ++ fst q ++ snd q) = true) /\
  (f = true -> starts (fst q) = false) /\
  (l = true -> f && starts t1 = false \/ ends t2 = false -> ends (snd q) = false).
Proof.
  intros O1 O2 S1 S2. unfold dstep, pure_step.
  destruct (border_solid dl t1 t2 O1 O2 S1 S2) as (B1 & B2 & B3 & B4).
  destruct (border_facts dl Default Default t1 t2) as (F1 & F2 & _).
  set (p := pure_border dl Default Default t1 t2) in *.
  assert (P1 := solid_short _ _ F1 S1). assert (P2 := solid_short _ _ F2 S2).
  assert (K1 := ok2_short _ _ F1 O1). assert (K2 := ok2_short _ _ F2 O2).
  set (q := pure_ends f l Default Default (starts t1) (ends t2) p).
  assert (Q : solid (fst q) /\ solid (snd q) /\
    (forall a b, (f = true -> a = []) -> (l = true -> b = []) -> nrm (a ++ fst q ++ snd q ++ b) = nrm (a ++ t1 ++ t2 ++ b)) /\
    (forall a, (f = true -> a = []) -> ok2 (a ++ t1) = true -> ok2 (a ++ fst q ++ snd q) = true) /\
    (f = true -> starts (fst q) = false) /\
    (l = true -> f && starts t1 = false \/ ends t2 = false -> ends (snd q) = false)).
  { assert (A0 : forall a, ok2 (a ++ t1) = true -> ok2 (a ++ fst p ++ snd p) = true).
    { intros a Ha. rewrite app_assoc. apply ok2_app; [|easy|].
      - unfold p, pure_border. destruct (ends t1 && starts t2) eqn:E; [|easy]. apply andb_true_iff in E. destruct E as (E & _).
        destruct dl; [easy|]. cbn [is_default andb fst]. apply ends_iff in E. destruct E as (u & ->). rewrite removelast_last.
        rewrite app_assoc in Ha. now apply ok2_app_l in Ha.
      - rewrite ends_app; [exact B1|now apply solid_ne]. }
    unfold q, pure_ends. cbn [is_default]. rewrite !andb_true_r.
    assert (E1 : is_empty (fst p) = false) by (apply solid_ne in P1; now destruct (fst p)).
    assert (E2 : is_empty (snd p) = false) by (apply solid_ne in P2; now destruct (snd p)).
    rewrite E1, E2. cbn [negb]. rewrite !andb_true_r.
    destruct (f && starts t1) eqn:Ef.
    - apply andb_true_iff in Ef. destruct Ef as (-> & Es). rewrite <- B3 in Es. cbn [fst snd].
      assert (Ss := short_tl _ Es). split; [now apply (solid_short (fst p))|]. split; [easy|].
      assert (Ht := Es). apply starts_iff in Ht. destruct Ht as (u & Hu).
      split; [|split; [|split]].
      + intros a b Ha Hb. rewrite (Ha eq_refl). cbn [app]. etransitivity; [|exact (B2 [] b)]. cbn [app]. rewrite Hu. cbn [tl app].
        symmetry. apply nrm_32.
      + intros a Ha Hk. rewrite (Ha eq_refl) in *. cbn [app] in *. specialize (A0 [] Hk). cbn [app] in A0.
        rewrite Hu in *. cbn [tl app] in *. now apply ok2_tail in A0.
      + intros _. now apply tl_no_lead.
      + intros _ [H|H]; [easy|]. congruence.
    - destruct (l && ends t2) eqn:El.
      + apply andb_true_iff in El. destruct El as (-> & Es). rewrite <- B4 in Es. cbn [fst snd].
        assert (Ss := short_removelast _ Es). split; [easy|]. split; [now apply (solid_short (snd p))|].
        assert (Ht := Es). apply ends_iff in Ht. destruct Ht as (u & Hu).
        split; [|split; [|split]].
        * intros a b Ha Hb. rewrite (Hb eq_refl), app_nil_r. etransitivity; [|exact (B2 a [])]. rewrite app_nil_r, Hu, removelast_last.
          rewrite !app_assoc. symmetry. apply nrm_snoc.
        * intros a Ha Hk. specialize (A0 a Hk). rewrite Hu in *. rewrite removelast_last. rewrite !app_assoc in A0.
          apply ok2_app_l in A0. now rewrite <- app_assoc in A0.
        * intros ->. cbn in Ef. congruence.
        * intros _ _. now apply removelast_no_trail.
      + split; [easy|]. split; [easy|]. split; [intros; apply B2|]. split; [intros; now apply A0|]. split.
        * intros ->. cbn in Ef. congruence.
        * intros -> _. cbn in El. congruence. }
  destruct Q as (Q1 & Q2 & Q3). unfold pure_last.
  assert (E2 : is_empty (snd q) = false) by (apply solid_ne in Q2; now destruct (snd q)).
  rewrite E2, andb_false_r, andb_false_l. exact Q3.
Qed.

(* ---- preserve mode *)
Lemma step_keep1 f l dl m2 t1 t2 : let q := pure_step f l dl Preserve m2 t1 t2 in
  (l = true -> snd q <> []) -> fst q = t1.
Proof.
  unfold pure_step. set (p := pure_border dl Preserve m2 t1 t2).
  assert (E1 : fst p = t1) by (unfold p, pure_border; destruct (ends t1 && starts t2), dl, m2; reflexivity).
  set (q := pure_ends f l Preserve m2 (starts t1) (ends t2) p).
  assert (E2 : fst q = t1).
  { unfold q, pure_ends. cbn [is_default]. rewrite andb_false_r. cbn [andb].
    destruct (l && ends t2 && negb (is_empty (snd p)) && is_default m2); exact E1. }
  unfold pure_last. destruct (l && ends t1 && negb (is_empty (fst q)) && is_empty (snd q) && ends (fst q)) eqn:E; [|easy].
  cbn [fst snd]. intros H. rewrite !andb_true_iff in E. destruct E as ((((-> & _) & _) & E) & _).
  destruct (snd q); [|easy]. now destruct (H eq_refl).
Qed.
Lemma step_keep2 f l dl m1 t1 t2 : snd (pure_step f l dl m1 Preserve t1 t2) = t2.
Proof.
  unfold pure_step. set (p := pure_border dl m1 Preserve t1 t2).
  assert (E1 : snd p = t2) by (unfold p, pure_border; destruct (ends t1 && starts t2), dl, m1; reflexivity).
  set (q := pure_ends f l m1 Preserve (starts t1) (ends t2) p).
  assert (E2 : snd q = t2).
  { unfold q, pure_ends. cbn [is_default]. rewrite andb_false_r.
    destruct (f && starts t1 && is_default m1 && negb (is_empty (fst p))); exact E1. }
  unfold pure_last. now destruct (l && ends t1 && negb (is_empty (fst q)) && is_empty (snd q) && ends (fst q)).
Qed.
