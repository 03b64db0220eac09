(* C93: what is not SVG. *)
From Coq Require Import String List Bool PeanoNat NArith.
From Verif Require Import Base Ids Names Links Tree ForestSpec TreeSpec Data Attrs Slab NodeApi Doc History Text Writer WriterSamples Parser ParserSpec
  ParserFacts ParserStatements ParserSamples Css OrderSpec XmlOrderSpec PartSpec PartProofs PartAttrs PartSpace PartForeign.
Import ListNotations.
Open Scope string_scope.
Open Scope nat_scope.
Open Scope list_scope.

(* XML documents with the same SVG part give the same error, or documents that differ in the order of attributes and of
   users only. *)
Theorem C93_parsed P top top' : svg_of P top' = svg_of P top -> parsed_alike (parse_svg P (Some top)) (parse_svg P (Some top')).
Proof. exact (part_api P top top'). Qed.
Print Assumptions C93_parsed.
(* They are written in the same way. *)
Theorem C93_written P W top top' D D' : svg_of P top' = svg_of P top ->
  parse_svg P (Some top) = Ok (POk D) -> parse_svg P (Some top') = Ok (POk D') -> write_dom W D' = write_dom W D.
Proof. exact (part_written P W top top' D D'). Qed.
Print Assumptions C93_written.
(* Without CSS rules, what is not SVG can be left out: it changes neither the document nor the error. *)
Theorem C93_only_svg P top : no_rules P top -> no_rules P (flat_map (only_svg None) top) ->
  parsed_alike (parse_svg P (Some top)) (parse_svg P (Some (flat_map (only_svg None) top))).
Proof. intros H H'. exact (part_api P _ _ (only_same P top H H')). Qed.
Print Assumptions C93_only_svg.
Theorem C93_only_svg_written P W top D D' : no_rules P top -> no_rules P (flat_map (only_svg None) top) ->
  parse_svg P (Some top) = Ok (POk D) -> parse_svg P (Some (flat_map (only_svg None) top)) = Ok (POk D') ->
  write_dom W D' = write_dom W D.
Proof. intros H H'. exact (part_written P W _ _ D D' (only_same P top H H')). Qed.
Print Assumptions C93_only_svg_written.

(* Attributes of other namespaces can be left out also if there are style sheets. *)
Theorem C93_foreign_attributes P top : (forall r, In r (p_sheet P (sheet_texts top)) -> exists s ds, r = css_rule s ds) ->
  parsed_alike (parse_svg P (Some top)) (parse_svg P (Some (map own_attributes top))).
Proof. intros H. exact (part_api P _ _ (own_same P top H)). Qed.
Print Assumptions C93_foreign_attributes.
Theorem C93_foreign_attributes_written P W top D D' : (forall r, In r (p_sheet P (sheet_texts top)) -> exists s ds, r = css_rule s ds) ->
  parse_svg P (Some top) = Ok (POk D) -> parse_svg P (Some (map own_attributes top)) = Ok (POk D') -> write_dom W D' = write_dom W D.
Proof. intros H. exact (part_written P W _ _ D D' (own_same P top H)). Qed.
Print Assumptions C93_foreign_attributes_written.

(* So can white text outside of text elements and processing instructions, except in style elements. *)
Theorem C93_indentation P top : (forall r, In r (p_sheet P (sheet_texts top)) -> exists s ds, r = css_rule s ds) ->
  parsed_alike (parse_svg P (Some top)) (parse_svg P (Some (flat_map (tidy false None) top))).
Proof. intros H. exact (part_api P _ _ (tidy_same P top H)). Qed.
Print Assumptions C93_indentation.
Theorem C93_indentation_written P W top D D' : (forall r, In r (p_sheet P (sheet_texts top)) -> exists s ds, r = css_rule s ds) ->
  parse_svg P (Some top) = Ok (POk D) -> parse_svg P (Some (flat_map (tidy false None) top)) = Ok (POk D') -> write_dom W D' = write_dom W D.
Proof. intros H. exact (part_written P W _ _ D D' (tidy_same P top H)). Qed.
Print Assumptions C93_indentation_written.

(* So can elements of other namespaces and unknown elements with everything in them, if there is no style sheet in them. *)
Theorem C93_foreign P top : (forall r, In r (p_sheet P (sheet_texts top)) -> exists s ds, r = css_rule s ds) ->
  flat_map hidden_sheets top = [] ->
  parsed_alike (parse_svg P (Some top)) (parse_svg P (Some (flat_map (svg_only false None) top))).
Proof. intros H H'. exact (part_api P _ _ (foreign_same P top H H')). Qed.
Print Assumptions C93_foreign.
Theorem C93_foreign_written P W top D D' : (forall r, In r (p_sheet P (sheet_texts top)) -> exists s ds, r = css_rule s ds) ->
  flat_map hidden_sheets top = [] ->
  parse_svg P (Some top) = Ok (POk D) -> parse_svg P (Some (flat_map (svg_only false None) top)) = Ok (POk D') -> write_dom W D' = write_dom W D.
Proof. intros H H'. exact (part_written P W _ _ D D' (foreign_same P top H H')). Qed.
Print Assumptions C93_foreign_written.

(* Style sheets are read from elements of any namespace: with rules, leaving them out shows. *)
Definition foreign_style : list xml :=
  [ el "svg" [] [ XmlElement (Some (lit "urn:x")) (lit "style") [] [tx "opacity:0.5"]; el "rect" [] [] ] ].
Theorem C93_foreign_style_shows : exists P top,
  ~ parsed_alike (parse_svg P (Some top)) (parse_svg P (Some (flat_map (only_svg None) top))).
Proof.
  exists PV, foreign_style.
  destruct (parsed_case PV foreign_style (fun D => exists_node D 2 /\ length (attributes D 2) = 1)) as (D & E & He & Ha).
  { vm_compute. repeat constructor. }
  destruct (parsed_case PV (flat_map (only_svg None) foreign_style) (fun D => attributes D 2 = [])) as (D' & E' & Ha').
  { vm_compute. reflexivity. }
  rewrite E, E'. intros A. pose proof (ak_attrs D D' A 2 He) as X. rewrite Ha' in X.
  apply Permutation.Permutation_nil in X. rewrite X in Ha. discriminate Ha.
Qed.
Print Assumptions C93_foreign_style_shows.

(* Metadata, editor attributes, a processing instruction, white text; a reference and a text. *)
Definition editor : option str := Some (lit "urn:editor").
Definition messy : list xml :=
  [ XmlOther; XmlComment (lit "c");
    el "svg" [mkXattr editor (lit "zoom") (lit "2"); at_ "width" "2"]
      [ tx " "; XmlElement editor (lit "metadata") [] [el "rect" [] []]; tx " ";
        el "linearGradient" [at_ "id" "lg"] []; el "nothing" [] [tx "a"];
        el "rect" [at_ "fill" "url(#lg)"; at_ "data-x" "2"; mkXattr editor (lit "id") (lit "b"); at_ "style" "opacity:0.5"] [XmlOther];
        el "text" [] [tx "a"; el "tspan" [] [tx " "]] ] ].
Example C93_case : no_rules PV messy /\ no_rules PV (flat_map (only_svg None) messy) /\
  flat_map (only_svg None) messy =
  [ XmlComment (lit "c");
    el "svg" [at_ "width" "2"]
      [ el "linearGradient" [at_ "id" "lg"] [];
        el "rect" [at_ "fill" "url(#lg)"; at_ "style" "opacity:0.5"] [];
        el "text" [] [tx "a"; el "tspan" [] [tx " "]] ] ] /\
  (exists D, parse_svg PV (Some messy) = Ok (POk D) /\ length (linked_nodes D 3) = 1 /\ length (attributes D 4) = 2).
Proof.
  split; [vm_compute; reflexivity|]. split; [vm_compute; reflexivity|]. split; [vm_compute; reflexivity|].
  apply parsed_case. vm_compute. split; reflexivity.
Qed.

(* A rule for rects with the class c; the class of a foreign namespace is not the one. *)
Definition class_rule (s : str) : rule :=
  css_rule [mkComponent (Some (lit "rect")) [SubAttribute (lit "class") (fun v => str_eqb v (lit "c"))] CbNone] (sample_decls s).
Definition PK : values :=
  mkValues sample_iri sample_func sample_paint sample_length (fun s => match s with [] => None | _ => Some 1%N end) sample_number
    (fun _ => Some 2%N) sample_color (fun _ => Some 3%N) (fun s => map Some s) (fun l => N.of_nat (length l)) (fun _ => Some 4%N)
    (fun _ => Some 5%N) (fun _ => Some 6%N) (fun _ => Some 7%N) (fun _ => false) (fun _ => false) (fun p => N.eqb p 0) (fun _ => false)
    sample_decls (map class_rule).
Definition styled : list xml :=
  [ el "svg" [mkXattr editor (lit "width") (lit "2")]
      [ el "style" [mkXattr editor (lit "type") (lit "x")] [tx "stroke-opacity:0.5"];
        el "rect" [mkXattr editor (lit "class") (lit "c"); at_ "class" "c"; mkXattr editor (lit "style") (lit "opacity:0.5")] [];
        el "rect" [mkXattr editor (lit "class") (lit "c")] [] ] ].
Example C93_attributes_case : (forall r, In r (p_sheet PK (sheet_texts styled)) -> exists s ds, r = css_rule s ds) /\
  map own_attributes styled =
  [ el "svg" [] [ el "style" [] [tx "stroke-opacity:0.5"]; el "rect" [at_ "class" "c"] []; el "rect" [] [] ] ] /\
  (exists D, parse_svg PK (Some styled) = Ok (POk D) /\ map a_name (attributes D 4) = [QId A_StrokeOpacity] /\ attributes D 5 = []).
Proof.
  split; [|split].
  - intros r H. cbn [PK p_sheet] in H. apply in_map_iff in H. destruct H as (s & <- & _). eexists _, _. reflexivity.
  - vm_compute. reflexivity.
  - apply parsed_case. vm_compute. split; reflexivity.
Qed.

(* Rects in a g with the class c. *)
Definition inner_rule (s : str) : rule :=
  css_rule [mkComponent (Some (lit "g")) [SubAttribute (lit "class") (fun v => str_eqb v (lit "c"))] CbNone;
            mkComponent (Some (lit "rect")) [] CbChild] (sample_decls s).
Definition PI : values :=
  mkValues sample_iri sample_func sample_paint sample_length (fun s => match s with [] => None | _ => Some 1%N end) sample_number
    (fun _ => Some 2%N) sample_color (fun _ => Some 3%N) (fun s => map Some s) (fun l => N.of_nat (length l)) (fun _ => Some 4%N)
    (fun _ => Some 5%N) (fun _ => Some 6%N) (fun _ => Some 7%N) (fun _ => false) (fun _ => false) (fun p => N.eqb p 0) (fun _ => false)
    sample_decls (map inner_rule).
Definition indented : list xml :=
  [ XmlOther; tx " ";
    el "svg" []
      [ tx " "; el "style" [] [XmlOther; tx "a"]; tx "  "; el "style" [] [tx "stroke-opacity:0.5"]; XmlOther;
        el "g" [at_ "class" "c"] [tx " "; el "rect" [] []; tx " "; el "text" [] [tx " "]]; tx " "; el "rect" [] [] ] ].
Example C93_indentation_case : (forall r, In r (p_sheet PI (sheet_texts indented)) -> exists s ds, r = css_rule s ds) /\
  flat_map (tidy false None) indented =
  [ el "svg" []
      [ el "style" [] [XmlOther; tx "a"]; el "style" [] [tx "stroke-opacity:0.5"];
        el "g" [at_ "class" "c"] [el "rect" [] []; el "text" [] [tx " "]]; el "rect" [] [] ] ] /\
  (exists D, parse_svg PI (Some indented) = Ok (POk D) /\ map a_name (attributes D 7) = [QId A_StrokeOpacity] /\ attributes D 10 = []).
Proof.
  split; [|split].
  - intros r H. cbn [PI p_sheet] in H. apply in_map_iff in H. destruct H as (s & <- & _). eexists _, _. reflexivity.
  - vm_compute. reflexivity.
  - apply parsed_case. vm_compute. split; reflexivity.
Qed.

Definition mixed : list xml :=
  [ el "svg" [mkXattr editor (lit "zoom") (lit "2"); at_ "data-x" "y"]
      [ tx " "; XmlElement editor (lit "g") [at_ "class" "c"] [el "rect" [] []];
        el "style" [mkXattr editor (lit "type") (lit "x")] [tx "stroke-opacity:0.5"; XmlElement editor (lit "a") [] []];
        XmlElement editor (lit "view") [] [tx "a"]; el "nothing" [] [el "rect" [] []];
        el "g" [at_ "class" "c"] [XmlElement None (lit "rect") [] []; el "rect" [] []]; el "rect" [] [] ] ].
Example C93_foreign_case : (forall r, In r (p_sheet PI (sheet_texts mixed)) -> exists s ds, r = css_rule s ds) /\
  flat_map hidden_sheets mixed = [] /\
  flat_map (svg_only false None) mixed =
  [ el "svg" [at_ "data-x" "y"]
      [ el "style" [] [tx "stroke-opacity:0.5"; XmlElement editor (lit "a") [] []];
        el "g" [at_ "class" "c"] [el "rect" [] []]; el "rect" [] [] ] ] /\
  (exists D, parse_svg PI (Some mixed) = Ok (POk D) /\ map a_name (attributes D 5) = [QId A_StrokeOpacity] /\ attributes D 6 = []).
Proof.
  split; [|split; [|split]].
  - intros r H. cbn [PI p_sheet] in H. apply in_map_iff in H. destruct H as (s & <- & _). eexists _, _. reflexivity.
  - vm_compute. reflexivity.
  - vm_compute. reflexivity.
  - apply parsed_case. vm_compute. split; reflexivity.
Qed.
