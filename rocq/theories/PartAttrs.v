(* Attributes of other namespaces, with style sheets. *)
From Coq Require Import String List Bool PeanoNat.
From Verif Require Import Base Ids Names Text AttrFacts Parser ParserSpec ParserStatements Writer Css PartSpec PartProofs.
Import ListNotations.
Open Scope string_scope.
Open Scope nat_scope.
Open Scope list_scope.

Lemma own_plain name attrs : plain_attribute name (filter (fun a => svg_namespace (x_ns a)) attrs) = plain_attribute name attrs.
Proof.
  unfold plain_attribute. f_equal. induction attrs as [|x l IH]; [reflexivity|]. cbn [filter find].
  destruct (ostr_eqb (x_ns x) None && str_eqb (x_name x) name) eqn:E.
  - assert (K : svg_namespace (x_ns x) = true) by (destruct (x_ns x); [discriminate E|reflexivity]).
    rewrite K. cbn [find]. now rewrite E.
  - destruct (svg_namespace (x_ns x)); [|exact IH]. cbn [find]. rewrite E. exact IH.
Qed.
Lemma own_svg attrs : svg_attributes (filter (fun a => svg_namespace (x_ns a)) attrs) = svg_attributes attrs.
Proof.
  unfold svg_attributes. induction attrs as [|x l IH]; [reflexivity|]. cbn [filter flat_map]. rewrite <- IH.
  destruct (svg_namespace (x_ns x)) eqn:E; [|reflexivity]. cbn [flat_map]. now rewrite E.
Qed.
Lemma own_sheets top : sheet_texts (map own_attributes top) = sheet_texts top.
Proof.
  unfold sheet_texts.
  assert (Q : forall x, flat_map sheet_text (xml_nodes (own_attributes x)) = flat_map sheet_text (xml_nodes x)).
  { induction x as [ns local attrs kids IH|s|s|] using xml_induction; try reflexivity. cbn [own_attributes xml_nodes flat_map]. f_equal.
    - unfold sheet_text. destruct kids as [|[]]; try reflexivity. cbn [map own_attributes]. now rewrite own_plain.
    - induction kids as [|k kids IHk]; [reflexivity|]. cbn [map flat_map]. rewrite !flat_map_app, (IH k (or_introl eq_refl)). f_equal.
      apply IHk. intros x Hx. apply IH. now right. }
  induction top as [|x l IH]; [reflexivity|]. cbn [map flat_map]. now rewrite !flat_map_app, Q, IH.
Qed.
Lemma own_at : forall path top, xml_at (map own_attributes top) path = option_map own_attributes (xml_at top path).
Proof.
  induction path as [|i p IH]; intros top; [reflexivity|]. cbn [xml_at]. rewrite nth_error_map.
  destruct p as [|j p]; [reflexivity|]. destruct (nth_error top i) as [[ns local attrs kids|s|s|]|]; try reflexivity. apply IH.
Qed.
Section C.
  Context (top : list xml). Let top' := map own_attributes top.
  Lemma own_element path : xml_is_element top' path = xml_is_element top path.
  Proof. unfold xml_is_element, top'. rewrite own_at. now destruct (xml_at top path) as [[]|]. Qed.
  Lemma own_prev path : prev_sibling_element top' path = prev_sibling_element top path.
  Proof. unfold prev_sibling_element. f_equal. apply filter_ext. exact own_element. Qed.
  Lemma own_sub path s : sub_matches top' path s = sub_matches top path s.
  Proof.
    destruct s as [name f|[|c]]; cbn [sub_matches pseudo_class_matches]; [|now rewrite own_prev|reflexivity].
    unfold attribute_matches, top'. rewrite own_at. destruct (xml_at top path) as [[]|]; try reflexivity. cbn [option_map own_attributes]. now rewrite own_plain.
  Qed.
  Lemma own_component path c : component_matches top' path c = component_matches top path c.
  Proof.
    unfold component_matches. f_equal.
    - destruct (c_tag c) as [tag|]; [|reflexivity]. unfold has_local_name, top'. rewrite own_at. now destruct (xml_at top path) as [[]|].
    - induction (c_subs c) as [|s l IH]; [reflexivity|]. cbn [forallb]. now rewrite own_sub, IH.
  Qed.
  Lemma own_left s : forall path, matches_left top' s path = matches_left top s path.
  Proof.
    induction s as [|c s IH]; intros path; [reflexivity|]. cbn [matches_left]. rewrite own_component. f_equal.
    destruct (c_combinator c); [reflexivity| | |].
    - induction (parent_elements _ _) as [|p l IHl]; [reflexivity|]. cbn [existsb]. now rewrite IH, IHl.
    - destruct (parent_element path); [apply IH|reflexivity].
    - rewrite own_prev. destruct (prev_sibling_element top path); [apply IH|reflexivity].
  Qed.
  Context (P : values) (rules : list rule) (H : forall r, In r rules -> exists s ds, r = css_rule s ds).
  Lemma own_rules path : sheet_decls rules top' path = sheet_decls rules top path.
  Proof.
    unfold sheet_decls. induction rules as [|r l IH]; [reflexivity|]. cbn [flat_map]. rewrite IH by (intros x Hx; apply H; now right). f_equal.
    destruct (H r (or_introl eq_refl)) as (s & ds & ->). cbn [css_rule r_matches]. unfold selector_matches. now rewrite own_left.
  Qed.
  Lemma own_part : forall x inside path, svg_part P rules top' inside path (own_attributes x) = svg_part P rules top inside path x.
  Proof.
    induction x as [ns local attrs kids IH|s|s|] using xml_induction; intros inside path; cbn [own_attributes svg_part]; try reflexivity.
    destruct (ostr_eqb ns _); [|reflexivity]. destruct (element_named local) as [e|]; [|reflexivity].
    unfold declarations, attribute_decls, xml_id, style_decls. rewrite own_rules, own_svg, own_plain. f_equal. f_equal.
    generalize 0. induction kids as [|k kids IHk]; intros i; [reflexivity|]. cbn [map]. rewrite (IH k (or_introl eq_refl) (Some e) (path ++ [i])).
    f_equal. apply IHk. intros x Hx. apply IH. now right.
  Qed.
  Lemma own_parts inside path : forall l i, svg_parts P rules top' inside path i (map own_attributes l) = svg_parts P rules top inside path i l.
  Proof. induction l as [|x l IH]; intros i; [reflexivity|]. cbn [map svg_parts]. now rewrite own_part, IH. Qed.
End C.
Theorem own_same P top : (forall r, In r (p_sheet P (sheet_texts top)) -> exists s ds, r = css_rule s ds) ->
  svg_of P (map own_attributes top) = svg_of P top.
Proof. intros H. unfold svg_of. rewrite own_sheets. now apply own_parts. Qed.
