(* The step over a pair of text nodes when one of the two strings may be a single space. *)
From Coq Require Import String List Bool PeanoNat NArith Lia.
From Verif Require Import Base Ids Data Attrs NodeApi ForestSpec Text TextSpec TextFacts TextPure AttrFacts.
Import ListNotations.
Open Scope N_scope.
Open Scope list_scope.

(* a trimmed text that is not empty *)
Definition piece (s : str) : Prop := ok2 s = true /\ (solid s \/ s = [32]).
Lemma solid_app_l a b : solid a -> solid (a ++ b).
Proof. intros (c & H & E). exists c. split; [apply in_app_iff; now left|easy]. Qed.
Lemma solid_app_r a b : solid b -> solid (a ++ b).
Proof. intros (c & H & E). exists c. split; [apply in_app_iff; now right|easy]. Qed.
Lemma not_solid_space : ~ solid [32].
Proof. intros (c & [<-|[]] & H). easy. Qed.
Lemma solid_full s : solid s -> is_empty s = false.
Proof. intros H. apply solid_ne in H. now destruct s. Qed.
Lemma starts_tail s : starts s = true -> s = 32 :: tl s.
Proof. rewrite starts_iff. now intros (t & ->). Qed.
Lemma ends_tail s : ends s = true -> s = removelast s ++ [32].
Proof. rewrite ends_iff. intros (t & ->). now rewrite removelast_last. Qed.
Lemma ends_snoc s : ends (s ++ [32]) = true.
Proof. apply ends_iff. now exists s. Qed.
Lemma nrm_mid a b c : nrm (a ++ [32] ++ 32 :: b ++ c) = nrm (a ++ 32 :: b ++ c).
Proof. cbn [app]. apply nrm_double. Qed.

Definition bad_start (f dl : bool) (t1 t2 : str) : bool := f && str_eqb t1 [32] && starts t2 && negb dl.

Lemma space_second f l dl t1 : ok2 t1 = true -> solid t1 ->
  dstep f l dl t1 [32] =
  (let c := f && starts t1 in
   if ends t1 then if dl then (if c then if l then removelast (tl t1) else tl t1 else if l then removelast t1 else t1, [])
                   else (if c then tl (removelast t1) else removelast t1, if l && negb c then [] else [32])
   else (if c then tl t1 else t1, if l && negb c then [] else [32])).
Proof.
  intros O S. assert (E1 := solid_ne _ S).
  unfold dstep, pure_step, pure_border. cbn [is_default andb starts tl]. change (32 =? 32) with true. rewrite ?andb_true_r.
  assert (Hc : forall u, solid u -> is_empty u = false) by (intros u Hu; apply solid_ne in Hu; now destruct u).
  assert (Ht : starts t1 = true -> solid (tl t1)).
  { intros E. exact (solid_short _ _ (short_tl _ E) S). }
  assert (Hr : ends t1 = true -> solid (removelast t1)).
  { intros E. exact (solid_short _ _ (short_removelast _ E) S). }
  destruct (ends t1) eqn:En.
  - specialize (Hr eq_refl). assert (Sr := fun E => starts_removelast t1 E (solid_ne _ Hr)).
    destruct dl; cbn [pure_ends fst snd is_default is_empty negb].
    + unfold pure_ends. cbn [fst snd is_default is_empty negb]. rewrite (Hc t1 S). cbn [negb]. rewrite ?andb_true_r, andb_false_r. cbn [andb].
      destruct (f && starts t1) eqn:Ef.
      * apply andb_true_iff in Ef. destruct Ef as (-> & Es). unfold pure_last. cbn [fst snd is_empty].
        rewrite (Hc _ (Ht Es)). cbn [negb]. rewrite ?andb_true_r. rewrite (ends_tl t1 En (solid_ne _ (Ht Es))), andb_true_r.
        now destruct l.
      * unfold pure_last. cbn [fst snd is_empty]. rewrite (Hc t1 S). cbn [negb]. rewrite ?andb_true_r, En, andb_true_r. now destruct l.
    + unfold pure_ends. cbn [fst snd is_default is_empty negb]. rewrite (Hc _ Hr). cbn [negb]. rewrite ?andb_true_r.
      change (ends [32]) with true. rewrite ?andb_true_r.
      destruct (f && starts t1) eqn:Ef.
      * unfold pure_last. cbn [fst snd is_empty]. rewrite ?andb_false_r. cbn. now rewrite ?andb_false_r.
      * rewrite ?andb_true_r. destruct l; cbn [andb negb].
        -- cbn [removelast fst snd]. unfold pure_last. cbn [fst snd is_empty andb]. idtac. rewrite (removelast_no_trail _ O En). rewrite ?andb_false_r. reflexivity.
        -- reflexivity.
  - unfold pure_ends. cbn [fst snd is_default is_empty negb]. rewrite (Hc t1 S). cbn [negb]. rewrite ?andb_true_r.
    change (ends [32]) with true. rewrite ?andb_true_r.
    destruct (f && starts t1) eqn:Ef; cbn [andb].
    + unfold pure_last. rewrite ?andb_false_r. cbn. now rewrite ?andb_false_r.
    + destruct l; cbn [andb negb removelast fst snd]; unfold pure_last; rewrite ?andb_false_r; reflexivity.
Qed.

Lemma space_first f l dl t2 : ok2 t2 = true -> solid t2 ->
  dstep f l dl [32] t2 =
  (let u := if starts t2 && dl then tl t2 else t2 in
   let e := starts t2 && negb dl in
   if f && negb e then ([], u) else (if e then [] else [32], if l && ends t2 then removelast u else u)).
Proof.
  intros O S.
  assert (Hc : forall u, solid u -> is_empty u = false) by (intros u Hu; apply solid_ne in Hu; now destruct u).
  assert (Ht : starts t2 = true -> solid (tl t2)).
  { intros E. exact (solid_short _ _ (short_tl _ E) S). }
  unfold dstep, pure_step. change (ends [32]) with true. change (starts [32]) with true.
  set (u := if starts t2 && dl then tl t2 else t2). set (e := starts t2 && negb dl).
  assert (Su : solid u). { unfold u. destruct (starts t2) eqn:Es; [|exact S]. destruct dl; [now apply Ht|exact S]. }
  assert (Eu : ends t2 = true -> ends u = true).
  { unfold u. destruct (starts t2) eqn:Es; [|easy]. destruct dl; [|easy]. cbn [andb]. intros He. apply ends_tl; [easy|].
    now apply solid_ne, Ht. }
  replace (pure_border dl Default Default [32] t2) with (if e then [] else [32], u)
    by (unfold u, e, pure_border; change (ends [32]) with true; now destruct (starts t2), dl).
  unfold pure_ends. cbn [fst snd is_default]. rewrite (Hc u Su). cbn [negb]. rewrite ?andb_true_r.
  assert (Sr : ends t2 = true -> solid (removelast u)).
  { intros He. exact (solid_short _ _ (short_removelast _ (Eu He)) Su). }
  destruct e; cbn [is_empty negb andb]; rewrite ?andb_false_r, ?andb_true_r.
  - destruct (l && ends t2) eqn:El; unfold pure_last; cbn [fst snd is_empty negb]; rewrite ?andb_false_r; reflexivity.
  - destruct f.
    + unfold pure_last; cbn [fst snd is_empty negb]; rewrite ?andb_false_r; reflexivity.
    + destruct (l && ends t2) eqn:El; unfold pure_last; cbn [fst snd is_empty negb].
      * apply andb_true_iff in El. destruct El as (_ & El). rewrite (Hc _ (Sr El)), ?andb_false_r. reflexivity.
      * rewrite (Hc _ Su), ?andb_false_r. reflexivity.
Qed.

(* One step after the texts [a], with the texts [b] to come. *)
Lemma step_mixed (f l dl : bool) (a t1 t2 : str) : piece t1 -> piece t2 -> solid t1 \/ solid t2 -> ok2 (a ++ t1) = true ->
  (if f then a = [] else solid (a ++ t1) : Prop) ->
  let q := dstep f l dl t1 t2 in
  (forall b, (l = true -> b = []) -> nrm (a ++ fst q ++ snd q ++ b) = nrm (a ++ t1 ++ t2 ++ b)) /\
  ok2 (a ++ fst q ++ snd q) = true /\ solid (a ++ fst q ++ snd q) /\
  (solid t2 -> solid (snd q)) /\ (t2 = [32] -> snd q = [] \/ snd q = [32]) /\ 
  starts (a ++ fst q ++ snd q) = (if f then bad_start f dl t1 t2 else starts (a ++ t1)) /\
  (l = true -> f && starts t1 = false \/ ends t2 = false -> ends (a ++ fst q ++ snd q) = false).
Proof.
  intros (O1 & P1) (O2 & P2) HS Ok Hf.
  destruct P1 as [S1| ->]; [destruct P2 as [S2| ->]|destruct HS as [HS|S2]; [now apply not_solid_space in HS|]].
  - (* both solid *)
    destruct (step_solid f l dl t1 t2 O1 O2 S1 S2) as (N1 & N2 & N3 & N4).
    pose proof (step_short f l dl Default Default t1 t2) as (Sh1 & Sh2).
    fold (dstep f l dl t1 t2) in Sh1, Sh2. cbn zeta.
    set (q := dstep f l dl t1 t2) in *.
    assert (Q1 := solid_short _ _ Sh1 S1). assert (Q2 := solid_short _ _ Sh2 S2).
    assert (Hfa : f = true -> a = []) by (intros ->; exact Hf).
    split; [intros b Hb; now apply N1|]. split; [now apply N2|].
    split; [now apply solid_app_r, solid_app_r|]. split; [easy|]. split; [intros ->; now apply not_solid_space in S2|].
    split.
    + destruct f.
      * subst a. cbn [app]. rewrite starts_app by now apply solid_ne. rewrite (N3 eq_refl). unfold bad_start.
        destruct (str_eqb t1 [32]) eqn:Ee; [|easy]. apply str_eqb_eq in Ee. subst t1. now apply not_solid_space in S1.
      * destruct a as [|x a]; [|reflexivity]. cbn [app]. rewrite starts_app by now apply solid_ne.
        unfold q, dstep, pure_step, pure_last, pure_ends. cbn [andb].
        pose proof (border_solid dl t1 t2 O1 O2 S1 S2) as (B1 & B2 & B3 & B4).
        destruct (border_facts dl Default Default t1 t2) as (F1 & F2 & _).
        set (p := pure_border dl Default Default t1 t2) in *.
        assert (E2 : forall m, is_empty (snd (if l && ends t2 && negb (is_empty (snd p)) && is_default m then (fst p, removelast (snd p)) else p)) = false).
        { intros m. destruct (l && ends t2 && _ && _) eqn:El; cbn [snd].
          - apply andb_true_iff in El. destruct El as (El & _). apply andb_true_iff in El. destruct El as (El & _).
            apply andb_true_iff in El. destruct El as (_ & El).
            rewrite <- B4 in El.
            assert (Hs := solid_short _ _ (short_removelast _ El) (solid_short _ _ F2 S2)). exact (solid_full _ Hs).
          - assert (Hs := solid_short _ _ F2 S2). exact (solid_full _ Hs). }
        rewrite E2. rewrite ?andb_false_r. cbn [andb]. destruct (l && ends t2 && _ && _); exact B3.
    + intros Hl He. rewrite app_assoc, ends_app by now apply solid_ne. now apply N4.
  - (* the second is a space *)
    rewrite (space_second f l dl t1 O1 S1). cbn zeta.
    assert (Hne := solid_ne _ S1).
    assert (Hbad : bad_start f dl t1 [32] = false).
    { unfold bad_start. destruct (str_eqb t1 [32]) eqn:Ee; [|now rewrite andb_false_r]. apply str_eqb_eq in Ee. subst t1. now apply not_solid_space in S1. }
    set (c := f && starts t1).
    assert (Hc : c = true -> a = [] /\ starts t1 = true).
    { unfold c. intros E. apply andb_true_iff in E. destruct E as (-> & E). easy. }
    assert (Hst : starts (a ++ t1) = if f then c || starts (a ++ t1) else starts (a ++ t1)).
    { unfold c. destruct f; [|easy]. cbn [andb]. subst a. cbn [app]. now destruct (starts t1). }
    set (w := if c then tl t1 else t1).
    assert (Ow : ok2 (a ++ w) = true /\ solid w /\ starts (a ++ w) = (if f then false else starts (a ++ t1)) /\ ends w = ends t1 /\
      (forall b, nrm (a ++ w ++ b) = nrm (a ++ t1 ++ b))).
    { unfold w. destruct c eqn:Ec.
      - destruct (Hc eq_refl) as (-> & Es). pose proof (short_tl _ Es) as Sh. cbn [app] in *.
        split; [now apply (ok2_short t1)|]. split; [now apply (solid_short t1)|].
        assert (f = true) as -> by (unfold c in Ec; now destruct f).
        split; [now apply tl_no_lead|]. split.
        + assert (S' := solid_short _ _ Sh S1). apply solid_ne in S'. rewrite (starts_tail t1 Es) at 2. symmetry. exact (ends_app [32] _ S').
        + intros b. rewrite (starts_tail t1 Es) at 2. cbn [app]. now rewrite nrm_32.
      - split; [easy|]. split; [easy|]. split; [|easy]. destruct f; [|easy]. subst a. cbn [app]. unfold c in Ec. exact Ec. }
    destruct Ow as (W1 & W2 & W3 & W4 & W5).
    assert (Hsw : starts (a ++ w ++ []) = starts (a ++ w)) by now rewrite app_nil_r.
    assert (Ha : a ++ w <> []). { intros E. apply app_eq_nil in E. destruct E as (_ & E). now apply solid_ne in W2. }
    assert (Er : removelast (tl t1) = tl (removelast t1)).
    { destruct t1 as [|x [|y t]]; reflexivity. }
    destruct (ends t1) eqn:En.
    + assert (Wr := short_removelast _ W4). assert (Sr := solid_short _ _ Wr W2). assert (Or := ends_tail w W4).
      assert (Nr := removelast_no_trail w ltac:(now apply ok2_app_r in W1) W4).
      assert (Har : a ++ removelast w <> []). { intros E. apply app_eq_nil in E. destruct E as (_ & E). now apply solid_ne in Sr. }
      assert (Kr : ok2 (a ++ removelast w) = true). { rewrite Or, app_assoc in W1. now apply ok2_app_l in W1. }
      assert (Tr : starts (a ++ removelast w) = starts (a ++ w)).
      { rewrite Or at 2. rewrite app_assoc. now rewrite (starts_app (a ++ removelast w)). }
      assert (W32 : forall b, nrm (a ++ w ++ b) = nrm (a ++ removelast w ++ [32] ++ b)) by (intros b; rewrite Or at 1; now rewrite <- app_assoc).
      destruct dl.
      * (* the second goes *)
        replace (if c then if l then removelast (tl t1) else tl t1 else if l then removelast t1 else t1)
          with (if l then removelast w else w) by (unfold w; now destruct c, l).
        cbn [fst snd app]. rewrite app_nil_r.
        split; [|split; [|split; [|split; [|split; [|split]]]]].
        -- intros b Hb. etransitivity; [|exact (W5 ([32] ++ b))]. destruct l.
           ++ rewrite (Hb eq_refl), app_nil_r. rewrite W32. rewrite app_assoc. cbn [app]. rewrite nrm_double. now rewrite nrm_snoc.
           ++ rewrite !W32. cbn [app]. rewrite app_assoc. rewrite (app_assoc a (removelast w) (32 :: 32 :: b)). symmetry. apply nrm_double.
        -- now destruct l.
        -- destruct l; now apply solid_app_r.
        -- intros H. now apply not_solid_space in H.
        -- now left.
        -- rewrite Hbad. destruct l; [now rewrite Tr|easy].
        -- intros -> _. rewrite ends_app by now apply solid_ne. exact Nr.
      * replace (if c then tl (removelast t1) else removelast t1) with (removelast w) by (unfold w; now destruct c).
        cbn [fst snd].
        split; [|split; [|split; [|split; [|split; [|split]]]]].
        -- intros b Hb. etransitivity; [|exact (W5 ([32] ++ b))]. destruct (l && negb c) eqn:El.
           ++ apply andb_true_iff in El. destruct El as (El & _). rewrite (Hb El), !app_nil_r. cbn [app].
              rewrite W32. cbn [app]. rewrite app_assoc, nrm_double. now rewrite nrm_snoc.
           ++ rewrite !W32. cbn [app]. rewrite !(app_assoc a (removelast w)). symmetry. apply nrm_double.
        -- destruct (l && negb c); [now rewrite app_nil_r|]. rewrite <- Or. exact W1.
        -- now apply solid_app_r, solid_app_l.
        -- intros H. now apply not_solid_space in H.
        -- intros _. destruct (l && negb c); tauto.
        -- rewrite app_assoc, starts_app by easy. rewrite Tr, W3. now rewrite Hbad.
        -- intros -> [H|H]; [|easy]. rewrite H. cbn [andb negb]. rewrite app_nil_r, ends_app by now apply solid_ne. exact Nr.
    + replace (if c then tl t1 else t1) with w by reflexivity. cbn [fst snd].
      split; [|split; [|split; [|split; [|split; [|split]]]]].
      * intros b Hb. etransitivity; [|exact (W5 ([32] ++ b))]. destruct (l && negb c) eqn:El; [|easy].
        apply andb_true_iff in El. destruct El as (El & _). rewrite (Hb El). cbn [app]. rewrite app_nil_r, app_assoc. now rewrite nrm_snoc.
      * destruct (l && negb c); [now rewrite app_nil_r|]. rewrite app_assoc. apply ok2_app; [easy|easy|].
        rewrite ends_app by now apply solid_ne. now rewrite W4.
      * now apply solid_app_r, solid_app_l.
      * intros H. now apply not_solid_space in H.
      * intros _. destruct (l && negb c); tauto.
      * rewrite app_assoc, starts_app by easy. rewrite W3. now rewrite Hbad.
      * intros -> [H|H]; [|easy]. rewrite H. cbn [andb negb]. rewrite app_nil_r, ends_app by now apply solid_ne. exact W4.
  - (* the first is a space *)
    rewrite (space_first f l dl t2 O2 S2). cbn zeta.
    set (e := starts t2 && negb dl). set (u := if starts t2 && dl then tl t2 else t2).
    assert (Hu : ok2 u = true /\ solid u /\ ends u = ends t2 /\ (e = false -> starts u = false) /\
       (e = true -> u = t2 /\ starts t2 = true) /\ (forall b, nrm (a ++ 32 :: u ++ b) = nrm (a ++ 32 :: t2 ++ b))).
    { unfold u, e. destruct (starts t2) eqn:Es; [|cbn [andb]; easy]. cbn [andb]. destruct dl; cbn [negb]; [|easy].
      pose proof (short_tl _ Es) as Sh. assert (S' := solid_short _ _ Sh S2).
      split; [now apply (ok2_short t2)|]. split; [easy|]. split; [rewrite (starts_tail t2 Es) at 2; symmetry; exact (ends_app [32] _ (solid_ne _ S'))|].
      split; [intros _; now apply tl_no_lead|]. split; [easy|]. intros b. rewrite (starts_tail t2 Es) at 2. cbn [app]. symmetry. apply nrm_double. }
    destruct Hu as (U1 & U2 & U3 & U4 & U5 & U6).
    assert (Sr : ends t2 = true -> solid (removelast u) /\ ok2 (removelast u) = true /\ ends (removelast u) = false /\ starts (removelast u) = starts u /\ u = removelast u ++ [32]).
    { intros E. rewrite <- U3 in E. pose proof (short_removelast _ E) as Sh. assert (S' := solid_short _ _ Sh U2).
      split; [easy|]. split; [now apply (ok2_short u)|].
      split; [now apply removelast_no_trail|]. pose proof (ends_tail u E) as Et. split; [|easy].
      rewrite Et at 2. now rewrite starts_app by now apply solid_ne. }
    destruct f.
    + subst a. cbn [app andb] in *. unfold bad_start. cbn [andb]. change (str_eqb [32] [32]) with true. cbn [andb]. fold e.
      change (starts [32]) with true. cbn [andb].
      destruct e eqn:Ee; cbn [negb fst snd app].
      * destruct (U5 eq_refl) as (Eu & Es). rewrite Eu in *.
        destruct (l && ends t2) eqn:El.
        -- apply andb_true_iff in El. destruct El as (-> & El). destruct (Sr El) as (R1 & R2 & R3 & R4 & R5).
           split; [|split; [|split; [|split; [|split; [|split]]]]]; try easy.
           ++ intros b Hb. rewrite (Hb eq_refl), !app_nil_r. rewrite nrm_32. rewrite R5 at 2. now rewrite nrm_snoc.
           ++ intros ->. now apply not_solid_space in S2.
           ++ now rewrite R4.
        -- split; [|split; [|split; [|split; [|split; [|split]]]]]; try easy.
           ++ intros b Hb. now rewrite nrm_32.
           ++ intros ->. now apply not_solid_space in S2.
           ++ intros -> [H|H]; [easy|exact H].
      * split; [|split; [|split; [|split; [|split; [|split]]]]]; try easy.
        -- intros b Hb. rewrite <- (nrm_32 (u ++ b)). apply U6.
        -- intros ->. now apply not_solid_space in S2.
        -- now apply U4.
        -- intros _ [H|H]; [easy|]. congruence.
    + assert (Ea : solid a). { destruct Hf as (x & Hx & Hn). apply in_app_iff in Hx. destruct Hx as [Hx|[Hx|[]]]; [now exists x|]. now symmetry in Hx. }
      assert (Ena : ends a = false).
      { destruct (ends a) eqn:En; [|easy]. apply ends_iff in En. destruct En as (v & ->). rewrite <- app_assoc in Ok. cbn [app] in Ok.
        apply ok2_app_r in Ok. easy. }
      assert (Oa : ok2 a = true) by now apply ok2_app_l in Ok.
      assert (Hane := solid_ne _ Ea).
      cbn [andb]. set (v := if e then [] else [32]).
      assert (Uv : (forall b, nrm (a ++ v ++ u ++ b) = nrm (a ++ [32] ++ t2 ++ b)) /\
        forall u', starts u' = starts u -> ok2 u' = true -> ok2 (a ++ v ++ u') = true).
      { unfold v. destruct e eqn:Ee.
        - destruct (U5 eq_refl) as (-> & Es). split.
          + intros b. rewrite (starts_tail t2 Es). cbn [app]. symmetry. apply nrm_double.
          + intros u' Hs Ho. cbn [app]. apply ok2_app; [easy|easy|]. now rewrite Ena.
        - split; [intros b; cbn [app]; apply U6|]. intros u' Hs Ho. rewrite app_assoc. apply ok2_app; [exact Ok|easy|].
          rewrite Hs, (U4 eq_refl). apply andb_false_r. }
      destruct Uv as (V1 & V2).
      cbn [fst snd].
      split; [|split; [|split; [|split; [|split; [|split]]]]].
      * intros b Hb. destruct (l && ends t2) eqn:El; [|apply V1]. apply andb_true_iff in El. destruct El as (El & E2).
        rewrite (Hb El), !app_nil_r. destruct (Sr E2) as (_ & _ & _ & _ & R5).
        specialize (V1 []). rewrite !app_nil_r in V1. etransitivity; [|exact V1]. rewrite R5 at 2. rewrite !app_assoc. symmetry. apply nrm_snoc.
      * destruct (l && ends t2) eqn:El; [|now apply V2]. apply andb_true_iff in El. destruct El as (El & E2).
        destruct (Sr E2) as (_ & R2 & _ & R4 & _). now apply V2.
      * now apply solid_app_l.
      * intros _. destruct (l && ends t2) eqn:El; [|easy]. apply andb_true_iff in El. now apply Sr.
      * intros ->. now apply not_solid_space in S2.
      * now rewrite !starts_app.
      * intros -> _. cbn [andb]. destruct (ends t2) eqn:E2.
        -- destruct (Sr eq_refl) as (R1 & _ & R3 & _). rewrite app_assoc, ends_app by now apply solid_ne. exact R3.
        -- rewrite app_assoc, ends_app by now apply solid_ne. now rewrite U3.
Qed.

(* Two texts only. *)
Lemma step_two dl (t1 t2 : str) : piece t1 -> piece t2 -> solid t1 \/ solid t2 -> bad_start true dl t1 t2 = false ->
  let q := dstep true true dl t1 t2 in
  ends (fst q ++ snd q) = starts t1 && ends t2 && negb (negb (str_eqb t1 [32]) && ends t1 && str_eqb t2 [32] && dl).
Proof.
  intros P1 P2 HS Hb. cbn zeta.
  pose proof (step_mixed true true dl [] t1 t2 P1 P2 HS (proj1 P1) eq_refl) as (_ & _ & _ & X2 & _ & _ & X4).
  destruct P1 as (O1 & [S1| ->]); [destruct P2 as (O2 & [S2| ->])|destruct HS as [HS|S2]; [now apply not_solid_space in HS|]].
  - assert (E1 : str_eqb t1 [32] = false).
    { destruct (str_eqb t1 [32]) eqn:Ee; [|easy]. apply str_eqb_eq in Ee. subst t1. now apply not_solid_space in S1. }
    assert (E2 : str_eqb t2 [32] = false).
    { destruct (str_eqb t2 [32]) eqn:Ee; [|easy]. apply str_eqb_eq in Ee. subst t2. now apply not_solid_space in S2. }
    rewrite E1, E2. cbn [negb andb]. rewrite ?andb_false_r, ?andb_true_r. cbn [andb negb]. rewrite ?andb_true_r.
    destruct (starts t1) eqn:Es; [|now apply X4; [|left]]. destruct (ends t2) eqn:En; [|now apply X4; [|right]]. cbn [andb].
    rewrite ends_app by now apply solid_ne, X2.
    unfold dstep, pure_step. rewrite Es, En.
    destruct (border_solid dl t1 t2 O1 O2 S1 S2) as (B1 & B2 & B3 & B4).
    destruct (border_facts dl Default Default t1 t2) as (F1 & F2 & _).
    set (p := pure_border dl Default Default t1 t2) in *.
    unfold pure_ends. rewrite (solid_full _ (solid_short _ _ F1 S1)). cbn [andb is_default negb].
    unfold pure_last. cbn [fst snd]. rewrite (solid_full _ (solid_short _ _ F2 S2)). rewrite ?andb_false_r. cbn [andb snd].
    now rewrite B4.
  - assert (E1 : str_eqb t1 [32] = false).
    { destruct (str_eqb t1 [32]) eqn:Ee; [|easy]. apply str_eqb_eq in Ee. subst t1. now apply not_solid_space in S1. }
    rewrite E1. change (str_eqb [32] [32]) with true. change (ends [32]) with true. cbn [negb andb]. rewrite ?andb_true_r.
    destruct (starts t1) eqn:Es; [|now apply X4; [|left]]. cbn [andb].
    rewrite (space_second true true dl t1 O1 S1), Es. cbn [andb negb].
    assert (St : solid (tl t1)) by exact (solid_short _ _ (short_tl _ Es) S1).
    destruct (ends t1) eqn:En; cbn [andb negb].
    + destruct dl; cbn [fst snd negb].
      * rewrite app_nil_r. apply removelast_no_trail; [exact (ok2_short _ _ (short_tl _ Es) O1)|].
        apply ends_tl; [easy|now apply solid_ne].
      * apply ends_snoc.
    + cbn [fst snd]. apply ends_snoc.
  - change (str_eqb [32] [32]) with true. change (starts [32]) with true. cbn [negb andb]. rewrite andb_true_r.
    unfold bad_start in Hb. change (str_eqb [32] [32]) with true in Hb. cbn [andb] in Hb.
    destruct P2 as (O2 & _). rewrite (space_first true true dl t2 O2 S2). cbn zeta. rewrite Hb. cbn [andb negb fst snd app].
    destruct (starts t2) eqn:Es; [|reflexivity]. destruct dl; [|easy]. cbn [andb].
    assert (St : solid (tl t2)) by exact (solid_short _ _ (short_tl _ Es) S2).
    rewrite (starts_tail t2 Es) at 2. symmetry. exact (ends_app [32] _ (solid_ne _ St)).
Qed.
