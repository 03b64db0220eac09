(* C92: the order of XML attributes. *)
From Coq Require Import String List Bool PeanoNat NArith Sorting.Permutation.
From Verif Require Import Base Ids Names Links Tree ForestSpec TreeSpec Data Attrs Slab NodeApi Doc History Writer WriterSamples Parser ParserSpec
  ParserFacts ParserStatements ParserSamples Css OrderSpec XmlOrderSpec XmlOrderText XmlOrderProofs.
Import ListNotations.
Open Scope string_scope.
Open Scope nat_scope.
Open Scope list_scope.

(* Documents that differ in the order of the attributes of elements give documents that differ in the order of
   attributes and of users only, or the same error. *)
Theorem C92_parsed P top top' : reordered_all top top' -> same_matches P top top' ->
  parsed_alike (parse_svg P (Some top)) (parse_svg P (Some top')).
Proof. exact (parse_api P top top'). Qed.
Print Assumptions C92_parsed.
(* They are written in the same way. *)
Theorem C92_written P W top top' D D' : reordered_all top top' -> same_matches P top top' ->
  parse_svg P (Some top) = Ok (POk D) -> parse_svg P (Some top') = Ok (POk D') -> write_dom W D' = write_dom W D.
Proof. exact (parse_written P W top top' D D'). Qed.
Print Assumptions C92_written.
(* Rules with the selectors of CSS apply to the same elements. *)
Theorem C92_selectors P top top' : reordered_all top top' ->
  (forall r, In r (p_sheet P (sheet_texts top)) -> exists s ds, r = css_rule s ds) -> same_matches P top top'.
Proof. exact (selectors_same P top top'). Qed.
Print Assumptions C92_selectors.
(* A parsed document has no attributes but those of SVG, not even on the nodes that were taken out again. *)
Theorem C92_named P top D n a : parse_svg P (Some top) = Ok (POk D) -> In a (attributes D n) -> exists i, a_name a = QId i.
Proof. intros E. exact (parsed_named P top D E n a). Qed.
Print Assumptions C92_named.

(* An element with two attributes that mean the same SVG attribute: the last one counts, so the order shows. *)
Definition two_ids (b : bool) : list xattr :=
  let x := at_ "id" "a" in let y := mkXattr (Some ns_xml) (lit "id") (lit "b") in if b then [x; y] else [y; x].
Theorem C92_same_attribute_shows : exists P attrs attrs', Permutation attrs attrs' /\ NoDup (map (fun x => (x_ns x, x_name x)) attrs) /\
  ~ parsed_alike (parse_svg P (Some [el "svg" attrs []])) (parse_svg P (Some [el "svg" attrs' []])).
Proof.
  exists PV, (two_ids true), (two_ids false). split; [apply perm_swap|]. split.
  { apply NoDup_cons; [|apply NoDup_cons; [intros []|apply NoDup_nil]]. intros [H|[]]. discriminate H. }
  destruct (parsed_case PV [el "svg" (two_ids true) []] (fun D => exists_node D 1 /\ id_of D 1 = lit "b")) as (D & E & He & Hi).
  { vm_compute. repeat constructor. }
  destruct (parsed_case PV [el "svg" (two_ids false) []] (fun D => id_of D 1 = lit "a")) as (D' & E' & Hi').
  { vm_compute. reflexivity. }
  rewrite E, E'. intros A. pose proof (ak_id D D' A 1 He) as X. rewrite Hi, Hi' in X. discriminate X.
Qed.
Print Assumptions C92_same_attribute_shows.

(* A style sheet for rects, two references of an element, a style attribute, an id. *)
Definition rect_rule (s : str) : rule :=
  css_rule [mkComponent (Some (lit "rect")) [SubAttribute (lit "class") (fun v => str_eqb v (lit "c"))] CbNone] (sample_decls s).
Definition PC : values :=
  mkValues sample_iri sample_func sample_paint sample_length (fun s => match s with [] => None | _ => Some 1%N end) sample_number
    (fun _ => Some 2%N) sample_color (fun _ => Some 3%N) (fun s => map Some s) (fun l => N.of_nat (length l)) (fun _ => Some 4%N)
    (fun _ => Some 5%N) (fun _ => Some 6%N) (fun _ => Some 7%N) (fun _ => false) (fun _ => false) (fun p => N.eqb p 0) (fun _ => false)
    sample_decls (map rect_rule).
Definition ordered_doc (attrs : list xattr) : list xml :=
  [ el "svg" [at_ "width" "2"]
      [ el "style" [] [tx "stroke-opacity:0.5"]; el "rect" attrs []; el "linearGradient" [at_ "id" "lg"] [] ] ].
Definition rect_1 : list xattr :=
  [at_ "fill" "url(#lg)"; at_ "stroke" "url(#lg)"; at_ "class" "c"; at_ "opacity" "2"; at_ "style" "opacity:0.5"; at_ "id" "r"].
Definition rect_2 : list xattr :=
  [at_ "style" "opacity:0.5"; at_ "stroke" "url(#lg)"; at_ "fill" "url(#lg)"; at_ "class" "c"; at_ "opacity" "2"; at_ "id" "r"].
Ltac no_dup := vm_compute; repeat (apply NoDup_cons; [intros H; cbn [In] in H; repeat (destruct H as [H|H]; [discriminate H|]); exact H|]); apply NoDup_nil.
Example C92_case : reordered_all (ordered_doc rect_1) (ordered_doc rect_2) /\
  (forall r, In r (p_sheet PC (sheet_texts (ordered_doc rect_1))) -> exists s ds, r = css_rule s ds) /\
  same_matches PC (ordered_doc rect_1) (ordered_doc rect_2) /\
  (exists D, parse_svg PC (Some (ordered_doc rect_1)) = Ok (POk D) /\
     map a_name (attributes D 4) = [QId A_StrokeOpacity; QId A_Opacity; QId A_Fill; QId A_Stroke]) /\
  (exists D, parse_svg PC (Some (ordered_doc rect_2)) = Ok (POk D) /\
     map a_name (attributes D 4) = [QId A_StrokeOpacity; QId A_Opacity; QId A_Stroke; QId A_Fill]).
Proof.
  assert (R : reordered_all (ordered_doc rect_1) (ordered_doc rect_2)).
  { unfold ordered_doc, el, tx.
    apply ro_more; [|apply ro_none]. apply ro_element; [split; [no_dup|intros _; no_dup]|apply Permutation_refl|].
    apply ro_more; [|apply ro_more; [|apply ro_more; [|apply ro_none]]].
    - apply ro_element; [split; [no_dup|intros _; no_dup]|apply Permutation_refl|]. apply ro_more; [apply ro_text|apply ro_none].
    - apply ro_element; [split; [no_dup|intros _; no_dup]| |apply ro_none].
      apply Permutation_sym.
      apply (Permutation_cons_app [at_ "fill" "url(#lg)"; at_ "stroke" "url(#lg)"; at_ "class" "c"; at_ "opacity" "2"] [at_ "id" "r"]).
      apply (Permutation_cons_app [at_ "fill" "url(#lg)"] [at_ "class" "c"; at_ "opacity" "2"; at_ "id" "r"]). apply Permutation_refl.
    - apply ro_element; [split; [no_dup|intros _; no_dup]|apply Permutation_refl|apply ro_none]. }
  assert (S : forall r, In r (p_sheet PC (sheet_texts (ordered_doc rect_1))) -> exists s ds, r = css_rule s ds).
  { intros r H. cbn [PC p_sheet] in H. apply in_map_iff in H. destruct H as (s & <- & _). eexists _, _. reflexivity. }
  split; [exact R|]. split; [exact S|]. split; [exact (C92_selectors PC _ _ R S)|].
  split; (apply parsed_case; vm_compute; reflexivity).
Qed.
