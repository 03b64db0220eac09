(* Text processing leaves settled texts as they are, whatever white space the writer added around them. *)
From Coq Require Import String List Bool PeanoNat NArith Permutation Sorted Lia.
From Verif Require Import Base Ids Names NamesProofs Links Tree Iter ForestSpec TreeSpec ListFacts TreeProofs ForestFacts
  IterSpec IterProofs Data Attrs AttrFacts AttrSpec Slab NodeApi Doc DocSpec History LinkProofs InvProofs HistoryProofs TreeApi ApiProofs
  Text TextSpec TextFacts TextPure TextProofs TextApi Writer WriterSpec WriterApi Parser ParserSpec RoundSpec RoundRead RoundMatch RoundResolve.
Import ListNotations.
Open Scope nat_scope.
Open Scope list_scope.

(* ---- strings *)
Lemma normal_front w s : forallb white w = true -> normal (w ++ s) = normal s.
Proof.
  induction w as [|c w IH]; [easy|]. cbn [forallb]. intros H. apply andb_true_iff in H. destruct H as (H1 & H2).
  cbn [app]. rewrite !normal_nrm in *. rewrite spaced_cons, H1, nrm_32. now apply IH.
Qed.
Lemma normal_back w : forall s, forallb white w = true -> normal (s ++ w) = normal s.
Proof.
  induction w as [|c w IH] using rev_ind; intros s H; [now rewrite app_nil_r|]. rewrite forallb_app in H. apply andb_true_iff in H.
  destruct H as (H1 & H2). cbn [forallb] in H2. rewrite andb_true_r in H2. rewrite app_assoc, !normal_nrm, spaced_app.
  replace (spaced [c]) with [32%N] by (unfold spaced; cbn [map]; now rewrite H2). rewrite nrm_snoc, <- normal_nrm.
  rewrite (IH s H1). now rewrite normal_nrm.
Qed.
Lemma normal_pad w1 s w2 : forallb white w1 = true -> forallb white w2 = true -> normal (w1 ++ s ++ w2) = normal s.
Proof. intros H1 H2. rewrite normal_front by easy. now apply normal_back. Qed.

Lemma strip_sub s : exists a b, s = a ++ rstrip (lstrip s) ++ b.
Proof.
  destruct (lstrip_suffix s) as (a & Ea & _). destruct (lstrip_suffix (rev (lstrip s))) as (b & Eb & _).
  exists a, (rev b). unfold rstrip. apply (f_equal (@rev _)) in Eb. rewrite rev_involutive, rev_app_distr in Eb.
  rewrite <- Eb. exact Ea.
Qed.
Lemma app_inj_len {A} (a b : list A) : forall c d, length a = length c -> a ++ b = c ++ d -> a = c /\ b = d.
Proof.
  induction a as [|x a IH]; intros [|y c] d E H; try easy. injection H as -> H. injection E as E.
  destruct (IH c d E H) as (-> & ->). easy.
Qed.
Lemma spaced_sub a s b : spaced (a ++ s ++ b) = a ++ s ++ b -> spaced s = s.
Proof.
  assert (L : forall x, length (spaced x) = length x) by (intros x; unfold spaced; apply map_length).
  rewrite !spaced_app. intros H. destruct (app_inj_len _ _ _ _ (L a) H) as (_ & H').
  now destruct (app_inj_len _ _ _ _ (L s) H').
Qed.
Lemma normal_spaced s : spaced (normal s) = normal s.
Proof.
  destruct (strip_sub (collapse (spaced s))) as (a & b & E). unfold normal.
  apply (spaced_sub a _ b). rewrite <- E. apply spaced_collapse. apply spaced_idem.
Qed.

(* ---- paired trees *)
Inductive paired (R : nid -> nid -> Prop) : tree -> tree -> Prop :=
| pt_node : forall n n' ts ts', R n n' -> Forall2 (paired R) ts ts' -> paired R (T n ts) (T n' ts').

Lemma paired_mono (R S : nid -> nid -> Prop) : (forall n n', R n n' -> S n n') -> forall u u', paired R u u' -> paired S u u'.
Proof.
  intros H. induction u as [n ts IH] using tree_ind'. intros u' Hp. inversion Hp as [? n' ? ts' Hr Hk]; subst. constructor; [now apply H|].
  clear Hp. revert ts' Hk. induction IH as [|v ts Hv IH IH2]; intros ts' Hk; inversion Hk; subst; constructor; [now apply Hv|now apply IH2].
Qed.
Lemma shape_paired u : forall u', same_shape u u' -> paired (same_place u u') u u'.
Proof.
  induction u as [n ts IH] using tree_ind'. intros u' Hs. inversion Hs as [? n' ? ts' Hk]; subst. constructor; [now left|].
  assert (G : Forall2 (paired (fun a b => In (a, b) (places ts ts'))) ts ts').
  { clear Hs. induction Hk as [|v v' ts ts' Hv Hk IHk]; [constructor|]. inversion IH as [|? ? IHv IHr]; subst. constructor.
    - apply (paired_mono (same_place v v')); [|now apply IHv]. intros a b Hab. rewrite (places_cons v v' ts ts' Hv).
      apply in_or_app. now left.
    - specialize (IHk IHr). clear - IHk Hv. assert (X : forall a b, In (a, b) (places ts ts') -> In (a, b) (places (v :: ts) (v' :: ts'))).
      { intros a b Hab. rewrite (places_cons v v' ts ts' Hv). apply in_or_app. now right. }
      revert X. generalize (places (v :: ts) (v' :: ts')). generalize dependent (places ts ts'). intros l H l' X.
      induction H as [|y y' us us' Hy H IH]; constructor; [|easy]. now apply (paired_mono (fun a b => In (a, b) l)). }
  clear - G. assert (X : forall a b, In (a, b) (places ts ts') -> same_place (T n ts) (T n' ts') a b) by (intros a b Hab; now right).
  revert X. generalize (same_place (T n ts) (T n' ts')). generalize dependent (places ts ts'). intros l H S X.
  induction H as [|y y' us us' Hy H IH]; constructor; [|easy]. now apply (paired_mono (fun a b => In (a, b) l)).
Qed.

Lemma paired_preorder R u : forall u', paired R u u' -> Forall2 R (preorder u) (preorder u').
Proof.
  induction u as [n ts IH] using tree_ind'. intros u' Hp. inversion Hp as [? n' ? ts' Hr Hk]; subst. cbn. constructor; [easy|].
  clear Hp. revert ts' Hk. induction IH as [|v ts Hv IH IH2]; intros ts' Hk; inversion Hk; subst; [constructor|]. cbn.
  apply Forall2_app; [now apply Hv|now apply IH2].
Qed.

Lemma paired_parent R F F1 u : wf_forest F -> wf_forest F1 -> forall u', tree_at F u -> tree_at F1 u' -> paired R u u' ->
  forall n n', same_place u u' n n' -> same_shape u u' ->
  (n = t_node u /\ n' = t_node u') \/ exists p p', R p p' /\ parent_of F n = Some p /\ parent_of F1 n' = Some p'.
Proof.
  intros Wf Wf1. induction u as [n ts IH] using tree_ind'. intros u' Ht Ht1 Hp m m' Hm Hs.
  inversion Hp as [? n' ? ts' Hr Hk]; subst. inversion Hs as [? ? ? ? Hsk]; subst.
  destruct Hm as [[= <- <-]|Hm]; [now left|]. right.
  inversion Ht as [? ? Ec Hall]; subst. inversion Ht1 as [? ? Ec1 Hall1]; subst.
  assert (Hc : forall c, In c ts -> parent_of F (t_node c) = Some n).
  { intros c Hc. apply (wf_child F Wf). rewrite Ec. now apply in_map. }
  assert (Hc1 : forall c, In c ts' -> parent_of F1 (t_node c) = Some n').
  { intros c Hc1. apply (wf_child F1 Wf1). rewrite Ec1. now apply in_map. }
  clear Ec Ec1 Ht Ht1 Hp Hs. change (combine (flat_map preorder ts) (flat_map preorder ts')) with (places ts ts') in Hm.
  revert ts' Hk Hsk Hm Hall1 Hc1. induction ts as [|v ts IHts]; intros ts' Hk Hsk Hm Hall1 Hc1;
    inversion Hk as [|? v' ? us' Hv Hk']; subst; [easy|]. inversion Hsk as [|? ? ? ? Hsv Hsk']; subst.
  inversion Hall as [|? ? Hav Hall']; subst. inversion Hall1 as [|? ? Hav1 Hall1']; subst. inversion IH as [|? ? IHv IHr]; subst.
  rewrite (places_cons v v' ts us' Hsv) in Hm. apply in_app_or in Hm. destruct Hm as [Hm|Hm].
  - destruct (IHv v' Hav Hav1 Hv m m' Hm Hsv) as [(-> & ->)|H]; [|exact H]. exists n, n'. split; [easy|].
    split; [apply Hc|apply Hc1]; now left.
  - apply (IHts IHr Hall' (fun c Hx => Hc c (or_intror Hx)) us' Hk' Hsk' Hm Hall1' (fun c Hx => Hc1 c (or_intror Hx))).
Qed.

(* ---- settled groups *)
Lemma shortened_length a b : shortened a b -> length b <= length a /\ (length b = length a -> b = a).
Proof.
  intros (x & y & -> & _ & _). rewrite !app_length. split; [lia|]. intros E.
  destruct x; [|cbn in E; lia]. destruct y; [|cbn in E; lia]. now rewrite app_nil_r.
Qed.

Lemma all_same (tx tx' : nid -> str) l : (forall n, In n l -> shortened (tx n) (tx' n)) ->
  all_text tx' l = all_text tx l -> forall n, In n l -> tx' n = tx n.
Proof.
  intros Hs He.
  assert (G : forall l, (forall n, In n l -> shortened (tx n) (tx' n)) ->
    length (all_text tx' l) <= length (all_text tx l) /\
    (length (all_text tx' l) = length (all_text tx l) -> forall n, In n l -> tx' n = tx n)).
  { clear. induction l as [|x l IH]; intros H; [split; [easy|intros _ n []]|].
    destruct (IH (fun n Hn => H n (or_intror Hn))) as (I1 & I2). destruct (shortened_length _ _ (H x (or_introl eq_refl))) as (S1 & S2).
    unfold all_text in *. cbn [map concat]. rewrite !app_length. split; [lia|]. intros E n [<-|Hn]; [apply S2; lia|].
    apply I2; [lia|easy]. }
  apply (G l Hs). now rewrite He.
Qed.

Lemma all_text_in tx l n : In n l -> exists a b, all_text tx l = a ++ tx n ++ b.
Proof.
  intros H. apply in_split in H. destruct H as (l1 & l2 & ->). exists (all_text tx l1), (all_text tx l2).
  unfold all_text. rewrite map_app, concat_app. reflexivity.
Qed.

Lemma group_default D F m g tx tx' : group_effect D F m g tx tx' ->
  (forall n, In n (texts D g) -> tmode D F m n = Default /\ inked (tx n)) ->
  normal (all_text tx (texts D g)) = all_text tx (texts D g) -> forall n, In n (texts D g) -> tx' n = tx n.
Proof.
  intros G H Hn n Hin.
  assert (Hsub : forall n, In n (texts D g) -> spaced (tx n) = tx n /\ collapse (tx n) = tx n).
  { intros k Hk. destruct (all_text_in tx _ k Hk) as (a & b & E). split.
    - apply (spaced_sub a _ b). rewrite <- E, <- Hn. apply normal_spaced.
    - apply collapse_id. destruct (normal_clean (all_text tx (texts D g))) as (N1 & _). rewrite Hn, E in N1.
      apply ok2_no_double in N1. apply ok2_app_r in N1. now apply ok2_app_l in N1. }
  destruct (normal_clean (all_text tx (texts D g))) as (_ & N2 & N3). rewrite Hn in N2, N3.
  destruct (texts D g) as [|a [|b l]] eqn:El; [easy| |].
  - destruct Hin as [<-|[]]. rewrite (ge_one _ _ _ _ _ _ G a El). unfold all_text in Hn. cbn [map concat] in Hn. rewrite app_nil_r in Hn.
    destruct m; [exact Hn|]. now apply Hsub; left.
  - apply (all_same tx tx' (a :: b :: l)); [|rewrite <- El, (ge_many _ _ _ _ _ _ G a b l El)|easy].
    + intros k Hk. pose proof (ge_each _ _ _ _ _ _ G k) as E. rewrite El in E. specialize (E Hk).
      destruct (H k Hk) as (Hd & _). rewrite Hd in E. cbn [clean] in E. destruct (Hsub k Hk) as (S1 & S2). now rewrite S1, S2 in E.
    + rewrite El. exact Hn.
    + rewrite El. exact H.
    + intros _. left. destruct (Hsub a (or_introl eq_refl)) as (-> & _). intros x E. apply (N2 (x ++ all_text tx (b :: l))).
      unfold all_text. cbn [map concat]. now rewrite E.
Qed.

Lemma group_preserve D F m g tx tx' : group_effect D F m g tx tx' ->
  (forall n, In n (texts D g) -> tmode D F m n = Preserve /\ spaced (tx n) = tx n /\ tx n <> []) ->
  forall n, In n (texts D g) -> tx' n = tx n.
Proof.
  intros G H n Hin. destruct (H n Hin) as (H1 & H2 & _). transitivity (spaced (tx n)); [|exact H2].
  assert (Hz : exists l z, texts D g = l ++ [z]).
  { destruct (texts D g) as [|a l] using rev_ind; [easy|]. now exists l, a. }
  destruct Hz as (l & z & Ez). apply (ge_keep _ _ _ _ _ _ G n z l Ez Hin H1). right.
  destruct (H z) as (Z1 & _ & Z3); [|now split]. rewrite Ez. apply in_or_app. right. now left.
Qed.

Section Texts.
Context (D : dom) (F : forest) (t : tree) (D2 : dom) (F1 : forest) (t1 : tree).
Let R := same_place t t1.
Context (Wf : wf_forest F) (Wf1 : wf_forest F1) (Ht : tree_at F t) (Ht1 : tree_at F1 t1) (Hshape : same_shape t t1).
Context (Hroot : parent_of F (t_node t) = None) (Hroot1 : parent_of F1 (t_node t1) = None).
Context (Hel : forall n n', R n n' -> is_element D2 n' = is_element D n) (Htx : forall n n', R n n' -> is_text D2 n' = is_text D n).
Context (Hsp : forall n n', R n n' -> own_space D2 n' = own_space D n).
Context (Hnd : NoDup (preorder t)) (Hnd1 : NoDup (preorder t1)).

Lemma mode_paired m n n' : R n n' -> mode_at D2 m n' = mode_at D m n.
Proof. intros H. unfold mode_at. now rewrite (Hsp n n' H). Qed.

Lemma groups_paired u : forall u' m, paired R u u' ->
  Forall2 (fun g g' => fst g = fst g' /\ paired R (snd g) (snd g')) (groups D m u) (groups D2 m u').
Proof.
  induction u as [n ts IH] using tree_ind'. intros u' m Hp. inversion Hp as [? n' ? ts' Hr Hk]; subst. cbn [groups].
  rewrite (Hel n n' Hr), (mode_paired m n n' Hr). destruct (is_element D n); [|constructor].
  assert (Eh : (match ts' with T c _ :: _ => is_text D2 c | [] => false end) = (match ts with T c _ :: _ => is_text D c | [] => false end)).
  { destruct Hk as [|[c cs] [c' cs'] ts ts' Hc Hk]; [easy|]. inversion Hc; subst. now apply Htx. }
  rewrite Eh. destruct (match ts with T c _ :: _ => is_text D c | [] => false end); [constructor; [now split|constructor]|].
  clear Eh Hp. set (m' := mode_at D m n). clearbody m'. revert ts' Hk.
  induction IH as [|v ts Hv IH IH2]; intros ts' Hk; inversion Hk; subst; [constructor|]. cbn [flat_map].
  apply Forall2_app; [now apply Hv|now apply IH2].
Qed.

Lemma texts_paired u u' : paired R u u' -> Forall2 R (texts D u) (texts D2 u').
Proof.
  intros Hp. apply paired_preorder in Hp. unfold texts. induction Hp as [|n n' l l' Hn Hp IH]; [constructor|]. cbn [filter].
  rewrite (Htx n n' Hn). destruct (is_text D n); [now constructor|easy].
Qed.

Lemma tmode_paired m n n' : R n n' -> tmode D2 F1 m n' = tmode D F m n.
Proof.
  intros H. unfold tmode.
  destruct (paired_parent R F F1 t Wf Wf1 t1 Ht Ht1 (shape_paired t t1 Hshape) n n' H Hshape) as [(-> & ->)|(p & p' & Hp & E1 & E2)].
  - now rewrite Hroot, Hroot1.
  - rewrite E1, E2. now apply mode_paired.
Qed.

Lemma all_groups_paired : Forall2 (fun g g' => fst g = fst g' /\ paired R (snd g) (snd g'))
  (flat_map (groups D Default) (t_kids t)) (flat_map (groups D2 Default) (t_kids t1)).
Proof.
  pose proof (shape_paired t t1 Hshape) as Hp. inversion Hp as [n n' ts ts' Hn Hk E1 E2]. cbn [t_kids].
  assert (Hk' : Forall2 (paired R) ts ts').
  { unfold R. rewrite <- E1, <- E2. exact Hk. }
  clear - Hk' Hel Htx Hsp. induction Hk' as [|v v' ts ts' Hv Hk IH]; [constructor|]. cbn [flat_map].
  apply Forall2_app; [|exact IH]. now apply groups_paired.
Qed.

(* every text is as it was *)
Context (HR2 : reachable_tame D2) (HS2 : shows (lk D2) F1) (HT2 : textual D2 F1) (Hr1 : t_node t1 = droot D2).
Context (D3 : dom) (F3 : forest) (HE : text_effect D2 F1 t1 D3 F3) (HSet : settled D F t).
Context (Hpads : forall n n', R n n' -> is_text D n = true -> text_of D n <> [] /\
  exists w1 w2, forallb white w1 = true /\ forallb white w2 = true /\
    (in_text D F n -> w1 = [] /\ w2 = []) /\ text_of D2 n' = w1 ++ text_of D n ++ w2).

Lemma no_pads n n' : R n n' -> is_text D n = true -> in_text D F n -> text_of D2 n' = text_of D n.
Proof.
  intros H Hn Hi. destruct (Hpads n n' H Hn) as (_ & w1 & w2 & _ & _ & Hw & ->). destruct (Hw Hi) as (-> & ->). cbn. apply app_nil_r.
Qed.

Lemma same_text_list l l' : Forall2 R l l' -> (forall n n', R n n' -> In n l -> text_of D2 n' = text_of D n) ->
  all_text (text_of D2) l' = all_text (text_of D) l.
Proof.
  induction 1 as [|n n' l l' Hn H IH]; intros E; [easy|]. unfold all_text in *. cbn [map concat]. rewrite (E n n' Hn (or_introl eq_refl)). f_equal.
  apply IH. intros a a' Ha Hin. apply E; [easy|now right].
Qed.

Lemma texts_are n u : In n (texts D u) -> is_text D n = true.
Proof. intros H. unfold texts in H. now apply filter_In in H. Qed.

Theorem texts_same n n' : R n n' -> is_text D n = true -> text_of D3 n' = text_of D n.
Proof.
  intros Hn Hx. assert (Hx' : is_text D2 n' = true) by now rewrite (Htx n n' Hn). destruct HSet as (HG & HO).
  destruct (rooted_or_not D2 F1 t1 HR2 HS2 HT2 Ht1 Hr1 n' Hx') as [(g' & Hg' & Hi')|Hno].
  - destruct (Forall2_in_r _ _ _ g' all_groups_paired Hg') as (g & Hg & Em & Hp).
    destruct (group_iff D2 F1 t1 HR2 HS2 HT2 Ht1 Hr1 g' Hg') as (G1 & G2 & G3).
    assert (GE : group_effect D2 F1 (fst g') (snd g') (text_of D2) (text_of D3)).
    { apply (te_group _ _ _ _ _ HE (t_node (snd g'))); try easy. exists n'. now apply G3. }
    pose proof (texts_paired _ _ Hp) as Ht2. destruct g as [m g]. destruct g' as [m' g']. cbn [fst snd] in *. subst m'.
    assert (Hfrom : forall k', In k' (texts D2 g') -> exists k, R k k' /\ In k (texts D g)).
    { intros k' Hk'. destruct (Forall2_in_r _ _ _ k' Ht2 Hk') as (k & Hk & Hr). now exists k. }
    assert (Hsame : forall k k', R k k' -> In k (texts D g) -> In k' (texts D2 g')).
    { intros k k' Hr Hk. destruct (Forall2_in_l _ _ _ k Ht2 Hk) as (k2 & Hk2 & Hr2).
      assert (k2 = k') as <-; [|easy]. eapply combine_fun; [|exact Hr2|exact Hr].
      exact Hnd. }
    destruct (HG m g Hg) as [(k & Ek & Hk)|(Hin & Hmode)].
    + rewrite Ek in Ht2. inversion Ht2 as [|? k' ? l' Hkk Hl E1 E2]. inversion Hl as [E3|]. subst l'. symmetry in E2. rename E2 into E3'.
      rewrite E3' in Hi'. destruct Hi' as [->|[]].
      assert (k = n) as -> by (eapply combine_inj; [exact Hnd1|exact Hkk|exact Hn]).
      rewrite (ge_one _ _ _ _ _ _ GE n' E3'). destruct m.
      * destruct (Hpads n n' Hn Hx) as (_ & w1 & w2 & Hw1 & Hw2 & _ & ->). now rewrite normal_pad.
      * destruct Hk as (Hk1 & Hk2). now rewrite (no_pads n n' Hn Hx Hk2).
    + assert (Hnp : forall k k', R k k' -> In k (texts D g) -> text_of D2 k' = text_of D k).
      { intros k k' Hr Hk. apply no_pads; [easy|now apply (texts_are k g)|now apply Hin]. }
      assert (Hng : In n (texts D g)).
      { destruct (Hfrom n' Hi') as (k & Hk & Hkg). assert (k = n) as <-; [|easy]. eapply combine_inj; [exact Hnd1|exact Hk|exact Hn]. }
      rewrite <- (Hnp n n' Hn Hng). destruct Hmode as [(Hm1 & Hm2)|Hm].
      * apply (group_default D2 F1 m g' (text_of D2) (text_of D3) GE); [| |easy].
        -- intros k' Hk'. destruct (Hfrom k' Hk') as (k & Hk & Hkg). rewrite (Hnp k k' Hk Hkg), (tmode_paired m k k' Hk). now apply Hm1.
        -- rewrite (same_text_list _ _ Ht2 Hnp). exact Hm2.
      * apply (group_preserve D2 F1 m g' (text_of D2) (text_of D3) GE); [|easy].
        intros k' Hk'. destruct (Hfrom k' Hk') as (k & Hk & Hkg). rewrite (Hnp k k' Hk Hkg), (tmode_paired m k k' Hk).
        destruct (Hm k Hkg) as (M1 & M2). split; [easy|]. split; [easy|]. apply (Hpads k k' Hk). now apply (texts_are k g).
  - rewrite (te_other _ _ _ _ _ HE n' Hno). apply no_pads; [easy|easy|]. apply HO; [now apply in_combine_l in Hn|easy|].
    intros m g Hg Hin. destruct (Forall2_in_l _ _ _ (m, g) all_groups_paired Hg) as ([m' g'] & Hg' & Em & Hp). cbn [fst snd] in *. subst m'.
    destruct (group_iff D2 F1 t1 HR2 HS2 HT2 Ht1 Hr1 (m, g') Hg') as (_ & _ & G3). cbn [snd] in G3.
    pose proof (texts_paired _ _ Hp) as Ht2. destruct (Forall2_in_l _ _ _ n Ht2 Hin) as (k' & Hk' & Hr).
    assert (k' = n') as -> by (eapply combine_fun; [exact Hnd|exact Hr|exact Hn]).
    apply G3 in Hk'. destruct Hk' as (_ & Hk'). exact (Hno _ Hk').
Qed.

End Texts.

(* no text goes *)
Lemma drained_same p u : (forall x, In x (preorder u) -> p x = false) -> drained p u = u.
Proof.
  induction u as [x us IH] using tree_ind'. intros H. cbn [drained]. f_equal.
  assert (G2 : forall v y, In v us -> In y (preorder v) -> p y = false).
  { intros v y Hv Hy. apply H. right. apply in_flat_map. now exists v. }
  clear H. induction IH as [|v us Hv IH IH2]; [easy|]. cbn [flat_map].
  rewrite (G2 v (t_node v) (or_introl eq_refl) (preorder_self v)). cbn [app]. f_equal.
  - apply Hv. intros y Hy. now apply (G2 v y (or_introl eq_refl)).
  - apply IH2. intros w y Hw. apply G2. now right.
Qed.
