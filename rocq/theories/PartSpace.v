(* White text and processing instructions, with style sheets. *)
From Coq Require Import String List Bool PeanoNat Lia.
From Verif Require Import Base Ids Names Text AttrFacts Parser ParserSpec ParserStatements Writer Css PartSpec PartProofs.
Import ListNotations.
Open Scope string_scope.
Open Scope nat_scope.
Open Scope list_scope.

(* ---- style sheets *)
Lemma tidy_keep : forall x inside, tidy true inside x = [x].
Proof.
  induction x as [ns local attrs kids IH|s|s|] using xml_induction; intros inside; try reflexivity. cbn [tidy orb]. f_equal. f_equal.
  induction kids as [|k kids IHk]; [reflexivity|]. cbn [flat_map]. rewrite (IH k (or_introl eq_refl)). cbn [app]. f_equal.
  apply IHk. intros x Hx. apply IH. now right.
Qed.
Lemma tidy_keeps l inside : flat_map (tidy true inside) l = l.
Proof. induction l as [|x l IH]; [reflexivity|]. cbn [flat_map]. now rewrite tidy_keep, IH. Qed.
Lemma no_sheet ns local attrs kids : str_eqb local (lit "style") = false -> sheet_text (XmlElement ns local attrs kids) = [].
Proof. intros E. cbn [sheet_text]. rewrite E. now destruct kids as [|[]]. Qed.
Lemma tidy_sheet : forall x keep inside, flat_map sheet_text (flat_map xml_nodes (tidy keep inside x)) = flat_map sheet_text (xml_nodes x).
Proof.
  induction x as [ns local attrs kids IH|s|s|] using xml_induction; intros keep inside.
  - cbn [tidy flat_map]. rewrite app_nil_r. destruct (str_eqb local (lit "style")) eqn:Es.
    { rewrite orb_true_r. now rewrite tidy_keeps. }
    rewrite orb_false_r. cbn [xml_nodes flat_map]. f_equal.
    + now rewrite !no_sheet.
    + induction kids as [|k kids IHk]; [reflexivity|]. cbn [flat_map]. rewrite !flat_map_app, (IH k (or_introl eq_refl)). f_equal.
      apply IHk. intros x Hx. apply IH. now right.
  - cbn [tidy]. now destruct (negb keep && _ && _).
  - reflexivity.
  - cbn [tidy]. now destruct keep.
Qed.
Lemma tidy_sheets top : sheet_texts (flat_map (tidy false None) top) = sheet_texts top.
Proof.
  unfold sheet_texts. induction top as [|x l IH]; [reflexivity|]. cbn [flat_map]. now rewrite !flat_map_app, tidy_sheet, IH.
Qed.

(* ---- places *)
Lemma at_snoc : forall p top ns local attrs kids i, xml_at top p = Some (XmlElement ns local attrs kids) -> xml_at top (p ++ [i]) = nth_error kids i.
Proof.
  induction p as [|j p IH]; intros top ns local attrs kids i H; [discriminate H|]. cbn [app xml_at] in *.
  destruct p as [|k p]; [now rewrite H|]. change ((k :: p) ++ [i]) with (k :: p ++ [i]) in *.
  destruct (nth_error top j) as [[ns' local' attrs' kids'|s|s|]|]; try discriminate H. now apply (IH _ _ _ _ _ i) in H.
Qed.
Section C.
  Context (top top' : list xml).
  (* Elements that are the same but for what is in them, in elements that are. *)
  Inductive place : list nat -> list nat -> Prop :=
  | pl_top i i' ns local attrs kids kids' : xml_at top [i] = Some (XmlElement ns local attrs kids) ->
      xml_at top' [i'] = Some (XmlElement ns local attrs kids') -> place [i] [i']
  | pl_below p p' i i' ns local attrs kids kids' : place p p' -> xml_at top (p ++ [i]) = Some (XmlElement ns local attrs kids) ->
      xml_at top' (p' ++ [i']) = Some (XmlElement ns local attrs kids') -> place (p ++ [i]) (p' ++ [i']).
  Lemma place_at p p' : place p p' -> exists ns local attrs kids kids',
    xml_at top p = Some (XmlElement ns local attrs kids) /\ xml_at top' p' = Some (XmlElement ns local attrs kids').
  Proof. intros [i i' ns local attrs kids kids' H H'|q q' i i' ns local attrs kids kids' _ H H']; eauto 10. Qed.
  Lemma place_some p p' : place p p' -> p <> [] /\ p' <> [] /\ length p' = length p.
  Proof.
    induction 1 as [|q q' i i' ns local attrs kids kids' _ (_ & _ & IH)]; [easy|]. rewrite !app_length, IH. split; [|split]; [now destruct q|now destruct q'|easy].
  Qed.
  Lemma place_parent p p' : place p p' -> match parent_element p, parent_element p' with
    | Some q, Some q' => place q q' | None, None => True | _, _ => False end.
  Proof.
    intros [i i' ns local attrs kids kids' H H'|q q' i i' ns local attrs kids kids' Hp _ _]; [exact Logic.I|]. unfold parent_element.
    rewrite !removelast_last. destruct (place_some q q' Hp) as (n & n' & _). now destruct q, q'.
  Qed.
  Lemma place_parents : forall n p p', place p p' -> Forall2 place (parent_elements n p) (parent_elements n p').
  Proof.
    induction n as [|n IH]; intros p p' H; [constructor|]. cbn [parent_elements]. pose proof (place_parent p p' H) as Q.
    destruct (parent_element p), (parent_element p'); try contradiction; [|constructor]. constructor; [exact Q|now apply IH].
  Qed.
  Lemma itself l p ns local attrs kids : xml_at l p = Some (XmlElement ns local attrs kids) -> prev_sibling_element l p = Some p.
  Proof.
    intros H. unfold prev_sibling_element, prev_siblings. destruct (rev p) as [|i r] eqn:E.
    { apply (f_equal (@rev nat)) in E. rewrite rev_involutive in E. cbn in E. subst p. discriminate H. }
    assert (Ep : p = rev r ++ [i]) by (rewrite <- (rev_involutive p), E; reflexivity).
    rewrite seq_S, rev_app_distr. cbn [rev app map filter plus]. rewrite <- Ep. unfold xml_is_element. now rewrite H.
  Qed.
  Lemma place_sub p p' s : place p p' -> sub_matches top' p' s = sub_matches top p s.
  Proof.
    intros H. destruct (place_at p p' H) as (ns & local & attrs & kids & kids' & A & A').
    destruct s as [name f|[|c]]; cbn [sub_matches pseudo_class_matches]; [|now rewrite (itself _ _ _ _ _ _ A), (itself _ _ _ _ _ _ A')|reflexivity].
    unfold attribute_matches. now rewrite A, A'.
  Qed.
  Lemma place_component p p' c : place p p' -> component_matches top' p' c = component_matches top p c.
  Proof.
    intros H. unfold component_matches. f_equal.
    - destruct (c_tag c) as [tag|]; [|reflexivity]. destruct (place_at p p' H) as (ns & local & attrs & kids & kids' & A & A').
      unfold has_local_name. now rewrite A, A'.
    - induction (c_subs c) as [|s l IH]; [reflexivity|]. cbn [forallb]. now rewrite (place_sub p p'), IH.
  Qed.
  Lemma place_left s : forall p p', place p p' -> matches_left top' s p' = matches_left top s p.
  Proof.
    induction s as [|c s IH]; intros p p' H; [reflexivity|]. cbn [matches_left]. rewrite (place_component p p' c H). f_equal.
    destruct (c_combinator c); [reflexivity| | |].
    - destruct (place_some p p' H) as (_ & _ & ->). pose proof (place_parents (length p) p p' H) as Q.
      induction Q as [|q q' l l' Hq _ IHl]; [reflexivity|]. cbn [existsb]. now rewrite (IH q q' Hq), IHl.
    - pose proof (place_parent p p' H) as Q. destruct (parent_element p), (parent_element p'); try contradiction; [now apply IH|reflexivity].
    - destruct (place_at p p' H) as (ns & local & attrs & kids & kids' & A & A').
      rewrite (itself _ _ _ _ _ _ A), (itself _ _ _ _ _ _ A'). now apply IH.
  Qed.
  Context (P : values) (rules : list rule) (H : forall r, In r rules -> exists s ds, r = css_rule s ds).
  Lemma place_rules p p' : place p p' -> sheet_decls rules top' p' = sheet_decls rules top p.
  Proof.
    intros Hp. unfold sheet_decls. induction rules as [|r l IH]; [reflexivity|]. cbn [flat_map]. rewrite IH by (intros x Hx; apply H; now right).
    f_equal. destruct (H r (or_introl eq_refl)) as (s & ds & ->). cbn [css_rule r_matches]. unfold selector_matches. now rewrite (place_left _ p p').
  Qed.
  Lemma part_element t ins path ns local attrs kids : svg_part P rules t ins path (XmlElement ns local attrs kids) =
    if ostr_eqb ns (Some (lit "http://www.w3.org/2000/svg")) then
      match element_named local with
      | Some e => [SElement e (xml_id attrs) (declarations P rules t path attrs) (svg_parts P rules t (Some e) path 0 kids)]
      | None => []
      end
    else [].
  Proof.
    cbn [svg_part]. destruct (ostr_eqb ns _); [|reflexivity]. destruct (element_named local) as [e|]; [|reflexivity].
    f_equal. f_equal. generalize 0. induction kids as [|k kids IH]; intros i; [reflexivity|]. cbn [svg_parts]. now rewrite <- IH.
  Qed.
  Lemma parts_app t ins path : forall a b i, svg_parts P rules t ins path i (a ++ b) =
    svg_parts P rules t ins path i a ++ svg_parts P rules t ins path (i + length a) b.
  Proof.
    induction a as [|x a IH]; intros b i; cbn [app svg_parts length]; [now rewrite Nat.add_0_r|]. rewrite IH, app_assoc. now rewrite Nat.add_succ_comm.
  Qed.
  Definition fits (p p' : list nat) : Prop := p = [] /\ p' = [] \/ place p p'.
  Definition good (x : xml) : Prop := forall keep ins p p' i i', xml_at top (p ++ [i]) = Some x ->
    (forall y, tidy keep ins x = [y] -> xml_at top' (p' ++ [i']) = Some y) -> fits p p' ->
    svg_parts P rules top' ins p' i' (tidy keep ins x) = svg_part P rules top ins (p ++ [i]) x.
  Lemma tidy_one keep ins x : tidy keep ins x = [] \/ exists y, tidy keep ins x = [y].
  Proof. destruct x as [ns local attrs kids|s|s|]; cbn [tidy]; eauto; [destruct (negb keep && _ && _)|destruct keep]; eauto. Qed.
  Lemma good_list keep ins p p' : fits p p' -> forall l, (forall x, In x l -> good x) -> forall i i',
    (forall k x, nth_error l k = Some x -> xml_at top (p ++ [i + k]) = Some x) ->
    (forall k y, nth_error (flat_map (tidy keep ins) l) k = Some y -> xml_at top' (p' ++ [i' + k]) = Some y) ->
    svg_parts P rules top' ins p' i' (flat_map (tidy keep ins) l) = svg_parts P rules top ins p i l.
  Proof.
    intros Hf. induction l as [|x l IH]; intros G i i' A A'; [reflexivity|]. cbn [flat_map svg_parts]. rewrite parts_app. f_equal.
    - apply (G x (or_introl eq_refl)); [|intros y Ey|exact Hf].
      + specialize (A 0 x eq_refl). now rewrite Nat.add_0_r in A.
      + specialize (A' 0 y). cbn [flat_map] in A'. rewrite Ey, Nat.add_0_r in A'. now apply A'.
    - apply IH; [intros z Hz; apply G; now right| |].
      + intros k z Hz. rewrite Nat.add_succ_comm. now apply A.
      + intros k z Hz. rewrite <- Nat.add_assoc. apply A'. cbn [flat_map].
        rewrite nth_error_app2 by lia. now replace (length (tidy keep ins x) + k - length (tidy keep ins x)) with k by lia.
  Qed.
  Lemma good_all x : good x.
  Proof.
    induction x as [ns local attrs kids IH|s|s|] using xml_induction; intros keep ins p p' i i' A A' Hf.
    - cbn [tidy] in *. specialize (A' _ eq_refl). cbn [svg_parts]. rewrite app_nil_r.
      assert (Hp : place (p ++ [i]) (p' ++ [i'])).
      { destruct Hf as [(-> & ->)|Hf]; [eapply pl_top; eassumption|eapply pl_below; eassumption]. }
      rewrite !part_element. destruct (ostr_eqb ns _); [|reflexivity]. destruct (element_named local) as [e|]; [|reflexivity].
      f_equal. f_equal; [unfold declarations; now rewrite (place_rules _ _ Hp)|].
      apply good_list; [now right|exact IH| |].
      + intros k x Hx. rewrite (at_snoc _ _ _ _ _ _ _ A). exact Hx.
      + intros k y Hy. rewrite (at_snoc _ _ _ _ _ _ _ A'). exact Hy.
    - cbn [tidy svg_part]. destruct (forallb is_white s && negb (white_matters ins)) eqn:E.
      + destruct keep; cbn [negb andb]; [|rewrite E; reflexivity]. cbn [svg_parts svg_part app]. now rewrite E.
      + rewrite <- andb_assoc, E, andb_false_r. cbn [svg_parts svg_part app]. now rewrite E.
    - reflexivity.
    - cbn [tidy svg_part]. now destruct keep.
  Qed.
End C.
Theorem tidy_same P top : (forall r, In r (p_sheet P (sheet_texts top)) -> exists s ds, r = css_rule s ds) ->
  svg_of P (flat_map (tidy false None) top) = svg_of P top.
Proof.
  intros H. unfold svg_of. rewrite tidy_sheets. apply good_list; [now left|intros x _; now apply good_all| |]; intros k x Hx; exact Hx.
Qed.
