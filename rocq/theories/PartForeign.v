(* Everything that is not SVG, with style sheets. *)
From Coq Require Import String List Bool PeanoNat Lia.
From Verif Require Import Base Ids Names Text AttrFacts Parser ParserSpec ParserStatements Writer Css PartSpec PartProofs PartAttrs PartSpace.
Import ListNotations.
Open Scope string_scope.
Open Scope nat_scope.
Open Scope list_scope.

(* ---- style sheets *)
Lemma only_keep : forall x inside, svg_only true inside x = [x].
Proof.
  induction x as [ns local attrs kids IH|s|s|] using xml_induction; intros inside; try reflexivity. cbn [svg_only orb]. f_equal. f_equal.
  induction kids as [|k kids IHk]; [reflexivity|]. cbn [flat_map]. rewrite (IH k (or_introl eq_refl)). cbn [app]. f_equal.
  apply IHk. intros x Hx. apply IH. now right.
Qed.
Lemma only_keeps l inside : flat_map (svg_only true inside) l = l.
Proof. induction l as [|x l IH]; [reflexivity|]. cbn [flat_map]. now rewrite only_keep, IH. Qed.
Lemma only_sheet : forall x inside, hidden_sheets x = [] ->
  flat_map sheet_text (flat_map xml_nodes (svg_only false inside x)) = flat_map sheet_text (xml_nodes x).
Proof.
  induction x as [ns local attrs kids IH|s|s|] using xml_induction; intros inside Hh.
  - cbn [svg_only orb hidden_sheets] in *. destruct (svg_element_name ns local).
    2: { rewrite Hh. reflexivity. }
    cbn [flat_map]. rewrite app_nil_r. destruct (str_eqb local (lit "style")) eqn:Es.
    + rewrite only_keeps. cbn [xml_nodes flat_map]. f_equal. cbn [sheet_text]. rewrite own_plain. reflexivity.
    + cbn [xml_nodes flat_map]. f_equal; [now rewrite !no_sheet|].
      induction kids as [|k kids IHk]; [reflexivity|]. cbn [flat_map] in *. apply app_eq_nil in Hh. destruct Hh as (H1 & H2).
      rewrite !flat_map_app, (IH k (or_introl eq_refl)) by exact H1. f_equal. apply IHk; [|exact H2]. intros x Hx. apply IH. now right.
  - cbn [svg_only]. now destruct (negb false && _ && _).
  - reflexivity.
  - reflexivity.
Qed.
Lemma only_sheets top : flat_map hidden_sheets top = [] -> sheet_texts (flat_map (svg_only false None) top) = sheet_texts top.
Proof.
  unfold sheet_texts. induction top as [|x l IH]; [reflexivity|]. cbn [flat_map]. intros H. apply app_eq_nil in H. destruct H as (H1 & H2).
  now rewrite !flat_map_app, only_sheet, IH.
Qed.

(* ---- places *)
Section C.
  Context (top top' : list xml).
  (* Elements that look the same to selectors, in elements that do. *)
  Definition alike (x x' : xml) : Prop := match x, x' with
    | XmlElement _ local attrs _, XmlElement _ local' attrs' _ => local' = local /\ forall name, plain_attribute name attrs' = plain_attribute name attrs
    | _, _ => False
    end.
  Inductive place : list nat -> list nat -> Prop :=
  | pl_top i i' x x' : xml_at top [i] = Some x -> xml_at top' [i'] = Some x' -> alike x x' -> place [i] [i']
  | pl_below p p' i i' x x' : place p p' -> xml_at top (p ++ [i]) = Some x ->
      xml_at top' (p' ++ [i']) = Some x' -> alike x x' -> place (p ++ [i]) (p' ++ [i']).
  Lemma place_at p p' : place p p' -> exists ns ns' local attrs attrs' kids kids',
    xml_at top p = Some (XmlElement ns local attrs kids) /\ xml_at top' p' = Some (XmlElement ns' local attrs' kids') /\
    forall name, plain_attribute name attrs' = plain_attribute name attrs.
  Proof.
    assert (Q : forall x x', alike x x' -> exists ns ns' local attrs attrs' kids kids', x = XmlElement ns local attrs kids /\
      x' = XmlElement ns' local attrs' kids' /\ forall name, plain_attribute name attrs' = plain_attribute name attrs).
    { intros [ns local attrs kids|?|?|] [ns' local' attrs' kids'|?|?|] H; try contradiction. destruct H as (-> & H). eauto 12. }
    intros [i i' x x' H H' A|q q' i i' x x' _ H H' A]; destruct (Q x x' A) as (ns & ns' & local & attrs & attrs' & kids & kids' & -> & -> & X); eauto 12.
  Qed.
  Lemma place_some p p' : place p p' -> p <> [] /\ p' <> [] /\ length p' = length p.
  Proof.
    induction 1 as [|q q' i i' x x' _ (_ & _ & IH)]; [easy|]. rewrite !app_length, IH. split; [|split]; [now destruct q|now destruct q'|easy].
  Qed.
  Lemma place_parent p p' : place p p' -> match parent_element p, parent_element p' with
    | Some q, Some q' => place q q' | None, None => True | _, _ => False end.
  Proof.
    intros [i i' x x' H H' _|q q' i i' x x' Hp _ _ _]; [exact Logic.I|]. unfold parent_element.
    rewrite !removelast_last. destruct (place_some q q' Hp) as (n & n' & _). now destruct q, q'.
  Qed.
  Lemma place_parents : forall n p p', place p p' -> Forall2 place (parent_elements n p) (parent_elements n p').
  Proof.
    induction n as [|n IH]; intros p p' H; [constructor|]. cbn [parent_elements]. pose proof (place_parent p p' H) as Q.
    destruct (parent_element p), (parent_element p'); try contradiction; [|constructor]. constructor; [exact Q|now apply IH].
  Qed.
  Lemma place_sub p p' s : place p p' -> sub_matches top' p' s = sub_matches top p s.
  Proof.
    intros H. destruct (place_at p p' H) as (ns & ns' & local & attrs & attrs' & kids & kids' & A & A' & X).
    destruct s as [name f|[|c]]; cbn [sub_matches pseudo_class_matches]; [|now rewrite (itself _ _ _ _ _ _ A), (itself _ _ _ _ _ _ A')|reflexivity].
    unfold attribute_matches. now rewrite A, A', X.
  Qed.
  Lemma place_component p p' c : place p p' -> component_matches top' p' c = component_matches top p c.
  Proof.
    intros H. unfold component_matches. f_equal.
    - destruct (c_tag c) as [tag|]; [|reflexivity]. destruct (place_at p p' H) as (ns & ns' & local & attrs & attrs' & kids & kids' & A & A' & X).
      unfold has_local_name. now rewrite A, A'.
    - induction (c_subs c) as [|s l IH]; [reflexivity|]. cbn [forallb]. now rewrite (place_sub p p'), IH.
  Qed.
  Lemma place_left s : forall p p', place p p' -> matches_left top' s p' = matches_left top s p.
  Proof.
    induction s as [|c s IH]; intros p p' H; [reflexivity|]. cbn [matches_left]. rewrite (place_component p p' c H). f_equal.
    destruct (c_combinator c); [reflexivity| | |].
    - destruct (place_some p p' H) as (_ & _ & ->). pose proof (place_parents (length p) p p' H) as Q.
      induction Q as [|q q' l l' Hq _ IHl]; [reflexivity|]. cbn [existsb]. now rewrite (IH q q' Hq), IHl.
    - pose proof (place_parent p p' H) as Q. destruct (parent_element p), (parent_element p'); try contradiction; [now apply IH|reflexivity].
    - destruct (place_at p p' H) as (ns & ns' & local & attrs & attrs' & kids & kids' & A & A' & X).
      rewrite (itself _ _ _ _ _ _ A), (itself _ _ _ _ _ _ A'). now apply IH.
  Qed.
  Context (P : values) (rules : list rule) (H : forall r, In r rules -> exists s ds, r = css_rule s ds).
  Lemma place_rules p p' : place p p' -> sheet_decls rules top' p' = sheet_decls rules top p.
  Proof.
    intros Hp. unfold sheet_decls. induction rules as [|r l IH]; [reflexivity|]. cbn [flat_map]. rewrite IH by (intros x Hx; apply H; now right).
    f_equal. destruct (H r (or_introl eq_refl)) as (s & ds & ->). cbn [css_rule r_matches]. unfold selector_matches. now rewrite (place_left _ p p').
  Qed.
  Definition fits (p p' : list nat) : Prop := p = [] /\ p' = [] \/ place p p'.
  Definition good (x : xml) : Prop := forall keep ins p p' i i', xml_at top (p ++ [i]) = Some x ->
    (forall y, svg_only keep ins x = [y] -> xml_at top' (p' ++ [i']) = Some y) -> fits p p' ->
    svg_parts P rules top' ins p' i' (svg_only keep ins x) = svg_part P rules top ins (p ++ [i]) x.
  Lemma good_list keep ins p p' : fits p p' -> forall l, (forall x, In x l -> good x) -> forall i i',
    (forall k x, nth_error l k = Some x -> xml_at top (p ++ [i + k]) = Some x) ->
    (forall k y, nth_error (flat_map (svg_only keep ins) l) k = Some y -> xml_at top' (p' ++ [i' + k]) = Some y) ->
    svg_parts P rules top' ins p' i' (flat_map (svg_only keep ins) l) = svg_parts P rules top ins p i l.
  Proof.
    intros Hf. induction l as [|x l IH]; intros G i i' A A'; [reflexivity|]. cbn [flat_map svg_parts]. rewrite parts_app. f_equal.
    - apply (G x (or_introl eq_refl)); [|intros y Ey|exact Hf].
      + specialize (A 0 x eq_refl). now rewrite Nat.add_0_r in A.
      + specialize (A' 0 y). cbn [flat_map] in A'. rewrite Ey, Nat.add_0_r in A'. now apply A'.
    - apply IH; [intros z Hz; apply G; now right| |].
      + intros k z Hz. rewrite Nat.add_succ_comm. now apply A.
      + intros k z Hz. rewrite <- Nat.add_assoc. apply A'. cbn [flat_map].
        rewrite nth_error_app2 by lia. now replace (length (svg_only keep ins x) + k - length (svg_only keep ins x)) with k by lia.
  Qed.
  Lemma good_all x : good x.
  Proof.
    induction x as [ns local attrs kids IH|s|s|] using xml_induction; intros keep ins p p' i i' A A' Hf.
    - cbn [svg_only] in *. destruct (keep || svg_element_name ns local) eqn:Ek.
      2: { rewrite part_element. apply orb_false_iff in Ek. destruct Ek as (_ & Ek). unfold svg_element_name in Ek.
           destruct ns as [s|]; [|reflexivity]. cbn [ostr_eqb]. destruct (str_eqb s _); [|reflexivity]. cbn [andb] in Ek.
           now destruct (element_named local). }
      specialize (A' _ eq_refl). cbn [svg_parts]. rewrite app_nil_r.
      set (attrs' := if keep then attrs else filter (fun a => svg_namespace (x_ns a)) attrs) in *.
      assert (Hpl : forall name, plain_attribute name attrs' = plain_attribute name attrs) by (intros name; unfold attrs'; destruct keep; [reflexivity|apply own_plain]).
      assert (Hsv : svg_attributes attrs' = svg_attributes attrs) by (unfold attrs'; destruct keep; [reflexivity|apply own_svg]).
      assert (Hp : place (p ++ [i]) (p' ++ [i'])).
      { destruct Hf as [(-> & ->)|Hf]; [eapply pl_top; [exact A|exact A'|now split]|eapply pl_below; [exact Hf|exact A|exact A'|now split]]. }
      rewrite !part_element. destruct (ostr_eqb ns _); [|reflexivity]. destruct (element_named local) as [e|]; [|reflexivity].
      f_equal. f_equal.
      + unfold xml_id. now rewrite Hsv.
      + unfold declarations, attribute_decls, style_decls. now rewrite (place_rules _ _ Hp), Hsv, Hpl.
      + apply good_list; [now right|exact IH| |].
        * intros k x Hx. rewrite (at_snoc _ _ _ _ _ _ _ A). exact Hx.
        * intros k y Hy. rewrite (at_snoc _ _ _ _ _ _ _ A'). exact Hy.
    - cbn [svg_only svg_part]. destruct (forallb is_white s && negb (white_matters ins)) eqn:E.
      + destruct keep; cbn [negb andb]; [|rewrite E; reflexivity]. cbn [svg_parts svg_part app]. now rewrite E.
      + rewrite <- andb_assoc, E, andb_false_r. cbn [svg_parts svg_part app]. now rewrite E.
    - reflexivity.
    - cbn [svg_only svg_part]. now destruct keep.
  Qed.
End C.
Theorem foreign_same P top : (forall r, In r (p_sheet P (sheet_texts top)) -> exists s ds, r = css_rule s ds) ->
  flat_map hidden_sheets top = [] -> svg_of P (flat_map (svg_only false None) top) = svg_of P top.
Proof.
  intros H Hh. unfold svg_of. rewrite (only_sheets top Hh). apply good_list; [now left|intros x _; now apply good_all| |]; intros k x Hx; exact Hx.
Qed.
