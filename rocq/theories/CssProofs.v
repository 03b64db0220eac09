(* Selectors: what the code selects. *)
From Coq Require Import String List Bool PeanoNat Lia.
From Verif Require Import Base Parser Css CssSpec ParserSpec ListFacts AttrFacts.
Import ListNotations.
Open Scope nat_scope.
Open Scope list_scope.

Lemma elements_iff top q : xml_is_element top q = true <-> is_element_at top q.
Proof.
  unfold xml_is_element, is_element_at, element_at. destruct (xml_at top q) as [[ns l a k|s|s|]|] eqn:E; split; try easy.
  - intros _. now exists l, a, ns, k.
  - now intros (? & ? & ? & ? & ?).
  - now intros (? & ? & ? & ? & ?).
  - now intros (? & ? & ? & ? & ?).
  - now intros (? & ? & ? & ? & ?).
Qed.

Lemma parent_iff q p : parent_element q = Some p <-> parent_of_path p q.
Proof.
  unfold parent_element, parent_of_path. destruct q as [|j q _] using rev_ind.
  - cbn. split; [easy|]. intros (Hp & i & H). destruct p; discriminate H.
  - rewrite removelast_last. split.
    + destruct q as [|x q]; [easy|]. intros [= <-]. split; [easy|]. now exists j.
    + intros (Hp & i & H). apply app_inj_tail in H. destruct H as (-> & _). now destruct p.
Qed.
Lemma parent_shorter q p : parent_element q = Some p -> List.length q = S (List.length p).
Proof. intros H. apply parent_iff in H. destruct H as (_ & i & ->). rewrite app_length. cbn. lia. Qed.

Lemma parents_iff : forall fuel q p, List.length q <= fuel -> In p (parent_elements fuel q) <-> above p q.
Proof.
  induction fuel as [|fuel IH]; intros q p Hf.
  - destruct q; [|cbn in Hf; lia]. cbn. split; [easy|]. intros (Hp & r & Hr & H). symmetry in H. apply app_eq_nil in H. easy.
  - cbn [parent_elements]. destruct (parent_element q) as [p0|] eqn:E.
    + pose proof (parent_shorter q p0 E) as Hl. apply parent_iff in E. destruct E as (H0 & i & ->). cbn [In]. rewrite IH by lia. split.
      * intros [<-|(Hp & r & Hr & ->)].
        -- split; [easy|]. now exists [i].
        -- split; [easy|]. exists (r ++ [i]). rewrite app_assoc. split; [|easy]. now destruct r.
      * intros (Hp & r & Hr & H). destruct r as [|x r _] using rev_ind; [easy|]. rewrite app_assoc in H.
        apply app_inj_tail in H. destruct H as (-> & _). destruct r as [|y r]; [left; now rewrite app_nil_r|]. right. split; [easy|]. now exists (y :: r).
    + split; [easy|]. intros (Hp & r & Hr & H). destruct r as [|x r _] using rev_ind; [easy|]. rewrite app_assoc in H.
      assert (X : parent_element q = Some (p ++ r)); [|congruence]. apply parent_iff. split; [now destruct p|]. now exists x.
Qed.

(* prev_siblings starts at the element itself *)
Lemma prev_self top q : is_element_at top q -> prev_sibling_element top q = Some q.
Proof.
  intros H. apply elements_iff in H. unfold prev_sibling_element, prev_siblings. destruct q as [|j q _] using rev_ind.
  - discriminate H.
  - rewrite rev_app_distr. cbn [rev app]. rewrite seq_S, rev_app_distr. cbn [rev app map Nat.add]. rewrite rev_involutive. cbn [filter].
    now rewrite H.
Qed.

Lemma ns_is_none o : ostr_eqb o None = true <-> o = None.
Proof. destruct o; cbn; easy. Qed.
Lemma plain_iff name attrs v : plain_attribute name attrs = Some v <-> attribute_value attrs name v.
Proof.
  unfold plain_attribute, attribute_value. induction attrs as [|x attrs IH]; cbn [find].
  - split; [easy|]. intros (pre & post & H & _). destruct pre; discriminate H.
  - destruct (ostr_eqb (x_ns x) None && str_eqb (x_name x) name) eqn:E.
    + apply andb_true_iff in E. destruct E as (E1 & E2). apply ns_is_none in E1. apply str_eqb_eq in E2. destruct x as [ns nm w].
      cbn in E1, E2. subst. cbn [option_map x_value]. split.
      * intros [= ->]. now exists [], attrs.
      * intros (pre & post & H & Hn). destruct pre as [|y pre]; injection H; [congruence|]. intros _ <-. exfalso. apply (Hn w). now left.
    + rewrite IH. split.
      * intros (pre & post & -> & Hn). exists (x :: pre), post. split; [easy|]. intros w [->|Hw]; [|now apply (Hn w)].
        cbn in E. now rewrite (proj2 (str_eqb_eq name name) eq_refl) in E.
      * intros (pre & post & H & Hn). destruct pre as [|y pre].
        -- injection H as -> _. cbn in E. now rewrite (proj2 (str_eqb_eq name name) eq_refl) in E.
        -- injection H as <- ->. exists pre, post. split; [easy|]. intros w Hw. apply (Hn w). now right.
Qed.

Lemma element_unique top q l a l' a' : element_at top q l a -> element_at top q l' a' -> l = l' /\ a = a'.
Proof. intros (ns & k & E) (ns' & k' & E'). rewrite E in E'. now injection E' as -> -> -> ->. Qed.

(* what the code takes for :first-child and + *)
Definition never (q : list nat) : Prop := False.
Definition itself (p q : list nat) : Prop := p = q.

Lemma sub_iff top q x : is_element_at top q -> sub_matches top q (sub_of x) = true <-> meets top never q x.
Proof.
  intros He. destruct x as [name test| |name]; cbn [sub_of sub_matches meets pseudo_class_matches].
  - destruct He as (l & a & ns & k & E). unfold attribute_matches. rewrite E. split.
    + destruct (plain_attribute name a) as [v|] eqn:Ev; [|easy]. intros H. exists l, a, v. split; [now exists ns, k|]. split; [|easy]. now apply plain_iff.
    + intros (l' & a' & v & He' & Hv & Ht). destruct (element_unique top q l a l' a') as (_ & <-); [now exists ns, k|easy|].
      apply plain_iff in Hv. now rewrite Hv.
  - rewrite (prev_self top q He). easy.
  - easy.
Qed.
Lemma component_iff top q c k : is_element_at top q -> component_matches top q (component_of c k) = true <-> fits top never q c.
Proof.
  intros He. unfold component_matches, fits, component_of. cbn [c_tag c_subs]. rewrite andb_true_iff, forallb_forall.
  assert (Ht : match tag c with Some t => has_local_name top q t | None => true end = true <->
               forall name, tag c = Some name -> exists attrs, element_at top q name attrs).
  { destruct (tag c) as [t|]; [|now split]. destruct He as (l & a & ns & kk & E). unfold has_local_name. rewrite E, str_eqb_eq. split.
    - intros -> name [= <-]. now exists a, ns, kk.
    - intros H. destruct (H t eq_refl) as (a' & He'). destruct (element_unique top q l a t a') as (-> & _); [now exists ns, kk|easy|easy]. }
  rewrite Ht. clear Ht. split; intros (H1 & H2); (split; [easy|]).
  - intros x Hx. apply (sub_iff top q x He). apply H2. apply in_map. easy.
  - intros y Hy. apply in_map_iff in Hy. destruct Hy as (x & <- & Hx). apply (sub_iff top q x He). now apply H2.
Qed.

Lemma xml_at_prefix : forall p r top, xml_at top (p ++ r) <> None -> p <> [] -> r <> [] -> is_element_at top p.
Proof.
  induction p as [|i p IH]; intros r top H Hp Hr; [easy|]. cbn [app] in H.
  destruct p as [|j p].
  - cbn [app] in H. destruct r as [|k r]; [easy|]. cbn [xml_at] in H. unfold is_element_at, element_at. cbn [xml_at].
    destruct (nth_error top i) as [[ns l a ks|s|s|]|]; try easy. now exists l, a, ns, ks.
  - cbn [app] in H. cbn [xml_at] in H. unfold is_element_at, element_at in *. cbn [xml_at].
    destruct (nth_error top i) as [[ns l a ks|s|s|]|]; try easy. apply (IH r ks); easy.
Qed.
Lemma above_element top p q : is_element_at top q -> above p q -> is_element_at top p.
Proof.
  intros (l & a & ns & k & E) (Hp & r & Hr & ->). apply (xml_at_prefix p r top); [congruence|easy|easy].
Qed.
Lemma parent_above p q : parent_of_path p q -> above p q.
Proof. intros (Hp & i & ->). split; [easy|]. now exists [i]. Qed.

Theorem matches_iff top : forall s q, is_element_at top q ->
  selector_matches (stored s) top q = true <-> selects_with top never itself s q.
Proof.
  unfold selector_matches.
  induction s as [c|s IH c|s IH c|s IH c]; intros q He; cbn [stored selects_with]; rewrite ?rev_app_distr; cbn [rev app matches_left];
    cbn [component_of c_combinator]; rewrite andb_true_iff; fold (component_of c CbNone).
  - change (mkComponent (tag c) (map sub_of (conditions c)) CbNone) with (component_of c CbNone).
    rewrite (component_iff top q c CbNone He). tauto.
  - change (mkComponent (tag c) (map sub_of (conditions c)) CbDescendant) with (component_of c CbDescendant).
    rewrite (component_iff top q c CbDescendant He). apply and_iff_compat_l. rewrite existsb_exists. split.
    + intros (p & Hp & Hm). apply parents_iff in Hp; [|easy]. exists p. split; [easy|]. apply IH; [|easy]. now apply (above_element top p q).
    + intros (p & Hp & Hm). exists p. split; [now apply parents_iff|]. apply IH; [|easy]. now apply (above_element top p q).
  - change (mkComponent (tag c) (map sub_of (conditions c)) CbChild) with (component_of c CbChild).
    rewrite (component_iff top q c CbChild He). apply and_iff_compat_l. split.
    + destruct (parent_element q) as [p|] eqn:E; [|easy]. intros Hm. apply parent_iff in E. exists p. split; [easy|].
      apply IH; [|easy]. now apply (above_element top p q), parent_above.
    + intros (p & Hp & Hm). rewrite (proj2 (parent_iff q p) Hp). apply IH; [|easy]. now apply (above_element top p q), parent_above.
  - change (mkComponent (tag c) (map sub_of (conditions c)) CbAdjacentSibling) with (component_of c CbAdjacentSibling).
    rewrite (component_iff top q c CbAdjacentSibling He). apply and_iff_compat_l. rewrite (prev_self top q He), (IH q He). split.
    + intros H. now exists q.
    + intros (p & -> & H). exact H.
Qed.

Lemma fits_free top f1 f2 q c : no_first c -> fits top f1 q c <-> fits top f2 q c.
Proof.
  intros H. unfold fits. apply and_iff_compat_l.
  assert (G : forall x, In x (conditions c) -> meets top f1 q x <-> meets top f2 q x).
  { intros [name test| |name] Hx; cbn [meets]; easy. }
  split; intros K x Hx; apply (G x Hx); now apply K.
Qed.
Lemma selects_free top f1 f2 b1 b2 : forall s, sibling_free s -> forall q, selects_with top f1 b1 s q <-> selects_with top f2 b2 s q.
Proof.
  induction s as [c|s IH c|s IH c|s IH c]; cbn [sibling_free selects_with]; intros H q; [now apply fits_free| | |easy];
    destruct H as (H1 & H2); rewrite (fits_free top f1 f2 q c H2); apply and_iff_compat_l; split; intros (p & Hp & Hs); exists p;
    (split; [easy|]); now apply (IH H1).
Qed.
Theorem matches_free top s q : sibling_free s -> is_element_at top q -> selector_matches (stored s) top q = true <-> selects top s q.
Proof. intros Hs Hq. rewrite (matches_iff top s q Hq). now apply selects_free. Qed.

(* the declarations of a style sheet *)
Theorem sheet_free sheet top q : (forall s ds, In (s, ds) sheet -> sibling_free s) -> is_element_at top q ->
  forall d, In d (sheet_decls (map (fun r => css_rule (stored (fst r)) (snd r)) sheet) top q) <->
    exists s ds, In (s, ds) sheet /\ selects top s q /\ In d (flat_map sheet_decl ds).
Proof.
  intros Hs Hq d. unfold sheet_decls. rewrite in_flat_map. split.
  - intros (r & Hr & Hd). apply in_map_iff in Hr. destruct Hr as ((s & ds) & <- & Hr). cbn [css_rule r_matches r_declarations fst snd] in Hd.
    destruct (selector_matches (stored s) top q) eqn:E; [|easy]. exists s, ds. split; [easy|]. split; [|easy].
    apply matches_free; [now apply (Hs s ds)|easy|easy].
  - intros (s & ds & Hr & Hsel & Hd). exists (css_rule (stored s) ds). split; [apply in_map_iff; now exists (s, ds)|].
    cbn [css_rule r_matches r_declarations]. rewrite (proj2 (matches_free top s q (Hs s ds Hr) Hq) Hsel). exact Hd.
Qed.
