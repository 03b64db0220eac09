(* The statements about parsing. *)
From Coq Require Import String List Bool PeanoNat NArith ZArith Lia.
From Coq Require Import SpecFloat.
From Verif Require Import Base Ids Links Tree Iter ForestSpec TreeSpec Data Attrs Slab NodeApi AttrSpec Doc History DocSpec
  ListFacts TreeProofs ForestFacts IterSpec IterProofs AttrFacts LinkProofs SlabProofs PruneFacts RemoveProofs InvProofs
  HistoryProofs DrainProofs CopyProofs TreeApi ApiProofs DocApi TidyProofs RootProofs Names NamesProofs Types Text TextSpec Loops
  TextProofs TextApi Parser ValueSpec ValueProofs ParserSpec ParserProofs ParserTree ParserLinks ParserApi ParserFacts ParserMeaning.
Import ListNotations.
Open Scope string_scope.
Open Scope nat_scope.
Open Scope list_scope.

(* ---- where declarations come from *)
Lemma part_element P rules top : forall x inside path e id ds,
  In (e, id, ds) (flat_map elements (svg_part P rules top inside path x)) ->
  exists attrs q, In attrs (xml_attributes x) /\ id = xml_id attrs /\ ds = declarations P rules top q attrs.
Proof.
  induction x as [ns local attrs kids IH|s|s|] using xml_ind'; intros inside path e id ds H; cbn [svg_part] in H.
  - destruct (ostr_eqb ns _); [|easy]. destruct (element_named local) as [e0|]; [|easy].
    cbn [flat_map elements app] in H. rewrite app_nil_r in H. destruct H as [[= <- <- <-]|H].
    + exists attrs, path. split; [now left|easy].
    + assert (G : forall l i, Forall (fun x => forall inside path e id ds,
          In (e, id, ds) (flat_map elements (svg_part P rules top inside path x)) ->
          exists attrs q, In attrs (xml_attributes x) /\ id = xml_id attrs /\ ds = declarations P rules top q attrs) l ->
        In (e, id, ds) (flat_map elements ((fix go i l := match l with [] => []
             | c :: t => svg_part P rules top (Some e0) (path ++ [i]) c ++ go (S i) t end) i l)) ->
        exists attrs q, In attrs (flat_map xml_attributes l) /\ id = xml_id attrs /\ ds = declarations P rules top q attrs).
      { clear H IH. induction l as [|c l IHl]; intros i HF H; [easy|]. inversion HF as [|? ? Hc HF']; subst.
        rewrite flat_map_app, in_app_iff in H. cbn [flat_map]. destruct H as [H|H].
        - destruct (Hc _ _ _ _ _ H) as (at1 & q & H1 & H2). exists at1, q. split; [|easy]. apply in_app_iff. now left.
        - destruct (IHl (S i) HF' H) as (at1 & q & H1 & H2). exists at1, q. split; [|easy]. apply in_app_iff. now right. }
      destruct (G kids 0 IH H) as (at1 & q & H1 & H2). exists at1, q. split; [|easy]. now right.
  - destruct (forallb is_white s && negb (white_matters inside)); easy.
  - easy.
  - easy.
Qed.
Lemma svg_element_from P top e id ds : In (e, id, ds) (flat_map elements (svg_of P top)) ->
  exists attrs q, In attrs (flat_map xml_attributes top) /\ id = xml_id attrs /\
    ds = declarations P (p_sheet P (sheet_texts top)) top q attrs.
Proof.
  unfold svg_of. set (rules := p_sheet P _). assert (G : forall l path i, In (e, id, ds) (flat_map elements (svg_parts P rules top None path i l)) ->
    exists attrs q, In attrs (flat_map xml_attributes l) /\ id = xml_id attrs /\ ds = declarations P rules top q attrs).
  { induction l as [|c l IHl]; intros path i H; [easy|]. cbn [svg_parts] in H. rewrite flat_map_app, in_app_iff in H. cbn [flat_map].
    destruct H as [H|H].
    - destruct (part_element _ _ _ _ _ _ _ _ _ H) as (at1 & q & H1 & H2). exists at1, q. split; [|easy]. apply in_app_iff. now left.
    - destruct (IHl path (S i) H) as (at1 & q & H1 & H2). exists at1, q. split; [|easy]. apply in_app_iff. now right. }
  apply G.
Qed.

Lemma presentation_plain a : is_presentation a = true -> special a = false.
Proof. destruct a; try reflexivity; intros H; vm_compute in H; discriminate H. Qed.
Lemma css_property_plain s a : css_property s = Some a -> special a = false.
Proof.
  unfold css_property. destruct (attribute_named s) as [b|]; [|easy]. destruct (is_presentation b) eqn:E; cbn [orb].
  - intros [= <-]. now apply presentation_plain.
  - destruct (aid_eqb b A_Transform) eqn:Et; [|easy]. intros [= <-]. apply aid_eqb_eq in Et. now subst b.
Qed.
Lemma declarations_plain P rules top path attrs a s : In (a, s) (declarations P rules top path attrs) -> special a = false.
Proof.
  unfold declarations. rewrite !in_app_iff. intros [H|[H|H]].
  - unfold attribute_decls in H. apply filter_In in H. destruct H as (_ & H). cbn [fst] in H. now destruct (special a).
  - unfold sheet_decls in H. apply in_flat_map in H. destruct H as (r & _ & H). destruct (r_matches r top path); [|easy].
    apply in_flat_map in H. destruct H as (d & _ & H). unfold sheet_decl in H. destruct (css_property (fst d)) as [b|] eqn:E; [|easy].
    apply css_property_plain in E.
    destruct (aid_eqb b A_Marker) eqn:Em.
    + apply aid_eqb_eq in Em. subst b. destruct H as [[= <- _]|[[= <- _]|[[= <- _]|[]]]]; reflexivity.
    + assert (H' : In (a, s) [(b, snd d)]) by (destruct b; first [exact H|discriminate Em]). destruct H' as [[= <- _]|[]]. easy.
  - unfold style_decls in H. destruct (plain_attribute (lit "style") attrs) as [v|]; [|easy]. apply in_flat_map in H. destruct H as (d & _ & H).
    unfold style_decl in H. destruct (css_property (fst d)) as [b|] eqn:E; [|easy]. destruct H as [[= <- _]|[]].
    now apply css_property_plain in E.
Qed.

(* ---- the tree *)
Lemma document_unique D t t' : document_tree D t -> document_tree D t' -> t = t'.
Proof.
  intros (F & S & T & E) (F' & S' & T' & E'). apply (tree_at_unique F t T t'); [|congruence].
  apply (tree_at_ext F' F); [|easy]. now apply (forest_eq_shows (lk D)).
Qed.
Lemma run_document P top D1 D2 D3 F F3 t ls : run P top D1 D2 D3 F F3 t ls ->
  document_tree D1 t /\ document_tree D2 t /\ document_tree D3 (final_tree D2 D3 t).
Proof.
  intros R. split; [|split].
  - exists F. split; [apply shows_Rep, (iv_rep _ _ (rn_inv1 _ _ _ _ _ _ _ _ _ R))|]. split; [apply R|].
    exact (rn_root _ _ _ _ _ _ _ _ _ R).
  - exists F. split; [apply shows_Rep, (iv_rep _ _ (rn_inv2 _ _ _ _ _ _ _ _ _ R))|]. split; [apply R|].
    rewrite (fr_root _ _ (rn_frame _ _ _ _ _ _ _ _ _ R)). exact (rn_root _ _ _ _ _ _ _ _ _ R).
  - exists F3. split; [now apply (run_shows P top D1 D2 D3 F F3 t ls)|].
    destruct (run_tree P top D1 D2 D3 F F3 t ls R) as (Ht & Hr & _). easy.
Qed.

Lemma document_node P top D1 D2 D3 F F3 t ls : run P top D1 D2 D3 F F3 t ls -> forall x, In x (preorder (final_tree D2 D3 t)) ->
  x = droot D3 \/
  (is_element D3 x = true /\ exists e ds, tag_name D3 x = QId e /\
     In (e, id_of D3 x, ds) (flat_map elements (flat_map no_style (svg_of P top))) /\ raw P D1 ls e ds x) \/
  (node_type D3 x = NText /\ text_of D3 x <> []) \/ node_type D3 x = NComment.
Proof.
  intros R x Hx. destruct (run_tree P top D1 D2 D3 F F3 t ls R) as (_ & Hr & Hk). rewrite preorder_eta in Hx.
  destruct Hx as [Hx|Hx]; [left; congruence|right].
  destruct (run_facts P top D1 D2 D3 F F3 t ls R (raw P D1 ls)) as (_ & Hs); [easy|].
  destruct (shown_node _ _ _ _ Hs x Hx) as [(He & e & ds & E1 & E2 & E3)|H]; [left|now right].
  split; [easy|]. now exists e, ds.
Qed.
Lemma root_not_element P top D1 D2 D3 F F3 t ls : run P top D1 D2 D3 F F3 t ls -> is_element D3 (droot D3) = false /\ is_text D3 (droot D3) = false.
Proof.
  intros R. pose proof (shows_inv D3 F3 (tame_reachable D3 (run_tame P top D1 D2 D3 F F3 t ls R)) (run_shows P top D1 D2 D3 F F3 t ls R)) as I.
  assert (E : node_type D3 (droot D3) = NRoot) by (apply (iv_root D3 F3 I); [apply I|easy]).
  unfold is_element, is_text. now rewrite E.
Qed.
Lemma plain_tag P top D1 D2 D3 F F3 t ls : run P top D1 D2 D3 F F3 t ls -> forall x, is_element D3 x = false ->
  attributes D3 x = [] /\ tag_name D3 x = QName [] /\ id_of D3 x = [].
Proof.
  intros R. pose proof (shows_inv D3 F3 (tame_reachable D3 (run_tame P top D1 D2 D3 F F3 t ls R)) (run_shows P top D1 D2 D3 F F3 t ls R)) as I.
  apply I.
Qed.

Theorem no_style_left P top D t n : parse_svg P (Some top) = Ok (POk D) -> document_tree D t -> In n (preorder t) ->
  tag_name D n <> QId E_Style.
Proof.
  intros E Ht Hn. destruct (parse_run P top D E) as (_ & D1 & D2 & F & F3 & t0 & ls & R & _).
  rewrite (document_unique D t (final_tree D2 D t0) Ht) in Hn by now apply (run_document P top D1 D2 D F F3 t0 ls).
  destruct (is_element D n) eqn:He.
  - destruct (document_node _ _ _ _ _ _ _ _ _ R n Hn) as [->|[(_ & e & ds & E1 & E2 & _)|H]].
    + destruct (root_not_element _ _ _ _ _ _ _ _ _ R). congruence.
    + rewrite E1. intros [= ->]. now apply parts_element in E2.
    + unfold is_element in He. destruct H as [(H & _)|H]; rewrite H in He; easy.
  - destruct (plain_tag _ _ _ _ _ _ _ _ _ R n He) as (_ & -> & _). easy.
Qed.
Theorem no_empty_text P top D t n : parse_svg P (Some top) = Ok (POk D) -> document_tree D t -> In n (preorder t) ->
  is_text D n = true -> text_of D n <> [].
Proof.
  intros E Ht Hn Hx. destruct (parse_run P top D E) as (_ & D1 & D2 & F & F3 & t0 & ls & R & _).
  rewrite (document_unique D t (final_tree D2 D t0) Ht) in Hn by now apply (run_document P top D1 D2 D F F3 t0 ls).
  destruct (document_node _ _ _ _ _ _ _ _ _ R n Hn) as [->|[(He & _)|[(_ & H)|H]]].
  - destruct (root_not_element _ _ _ _ _ _ _ _ _ R). congruence.
  - unfold is_text, is_element in *. destruct (node_type D n); easy.
  - easy.
  - unfold is_text in Hx. rewrite H in Hx. easy.
Qed.

Theorem tree_of_xml P top D : parse_tree P top = Ok (POk D) ->
  exists t, document_tree D t /\ laid_out (fun _ _ _ => True) D (flat_map no_style (svg_of P top)) (t_kids t).
Proof.
  intros E. destruct (tree_run P top D E) as (D1 & D3 & F & F3 & t & ls & R & _).
  exists t. split; [apply (run_document _ _ _ _ _ _ _ _ _ R)|].
  now apply (run_facts P top D1 D D3 F F3 t ls R).
Qed.
Theorem tree_of_svg P top D : parse_svg P (Some top) = Ok (POk D) ->
  exists t, document_tree D t /\ shown (fun _ _ _ => True) D (flat_map no_style (svg_of P top)) (t_kids t).
Proof.
  intros E. destruct (parse_run P top D E) as (_ & D1 & D2 & F & F3 & t & ls & R & _).
  exists (final_tree D2 D t). split; [apply (run_document _ _ _ _ _ _ _ _ _ R)|].
  now apply (run_facts P top D1 D2 D F F3 t ls R).
Qed.

(* ---- references *)
Theorem references_resolved P top D : parse_tree P top = Ok (POk D) ->
  exists D1 t ls, document_tree D1 t /\ document_tree D t /\
    (forall n a, In a (attributes D1 n) -> link_target (a_value a) = None) /\
    built P D1 (flat_map no_style (svg_of P top)) (t_kids t) (filter (fun d => mem (l_node d) (preorder t)) ls) /\
    resolved t ls D1 D.
Proof.
  intros E. destruct (tree_run P top D E) as (D1 & D3 & F & F3 & t & ls & R & _).
  exists D1, t, ls. destruct (run_document _ _ _ _ _ _ _ _ _ R) as (H1 & H2 & _). split; [easy|]. split; [easy|].
  split; [exact (rn_plain _ _ _ _ _ _ _ _ _ R)|]. split; apply R.
Qed.
Theorem any_references_resolved D t ls : reachable_tame D -> document_tree D t ->
  (forall d, In d ls -> is_element D (l_node d) = true) -> exists D', resolve_links ls D = Ok D' /\ resolved t ls D D'.
Proof.
  intros HR (F & S & T & E) He. pose proof (shows_inv D F (tame_reachable D HR) S) as I.
  destruct (resolve_links_spec t F ls D T ls D) as (D' & E' & R & _); try easy.
  now exists D'.
Qed.

(* ---- the cascade *)
Theorem cascade P top D : parse_svg P (Some top) = Ok (POk D) ->
  exists t, document_tree D t /\ shown (cascaded P top D t) D (flat_map no_style (svg_of P top)) (t_kids t).
Proof.
  intros E. destruct (parse_run P top D E) as (_ & D1 & D2 & F & F3 & t & ls & R & _).
  exists (final_tree D2 D t). split; [apply (run_document _ _ _ _ _ _ _ _ _ R)|].
  apply (run_facts P top D1 D2 D F F3 t ls R). intros e ds n _ _ _ _ Hraw a. split.
  - intros Hn v. rewrite (run_attrs3 _ _ _ _ _ _ _ _ _ R). now apply (run_no_reference P top D1 D2 D F F3 t ls R).
  - intros iri fb Hl H1 H2 H3 v. rewrite (run_attrs3 _ _ _ _ _ _ _ _ _ R), (run_first P top D1 D2 D F F3 t ls R iri H1).
    rewrite (run_id3 _ _ _ _ _ _ _ _ _ R), (run_id _ _ _ _ _ _ _ _ _ R) in H2, H3.
    now apply (run_reference P top D1 D2 D F F3 t ls R e ds n a iri fb).
Qed.

(* ---- attributes *)
Theorem attributes_from P top D : parse_svg P (Some top) = Ok (POk D) ->
  exists t, document_tree D t /\
    shown (fun e ds n => forall x, In x (attributes D n) -> exists a s, a_name x = QId a /\ special a = false /\ In (a, s) ds)
      D (flat_map no_style (svg_of P top)) (t_kids t) /\
    (forall n, In n (preorder t) -> is_element D n = false -> attributes D n = [] /\ id_of D n = []).
Proof.
  intros E. destruct (parse_run P top D E) as (_ & D1 & D2 & F & F3 & t & ls & R & _).
  exists (final_tree D2 D t). split; [apply (run_document _ _ _ _ _ _ _ _ _ R)|]. split.
  - apply (run_facts P top D1 D2 D F F3 t ls R). intros e ds n Hn _ _ Hin Hraw x Hx. rewrite (run_attrs3 _ _ _ _ _ _ _ _ _ R) in Hx.
    destruct (run_from P top D1 D2 D F F3 t ls R e ds n x Hn Hraw Hx) as (a & s & Ha & Hs). exists a, s. split; [easy|]. split; [|easy].
    apply parts_element in Hin. destruct Hin as (_ & Hin). apply svg_element_from in Hin. destruct Hin as (attrs & q & _ & _ & ->).
    now apply declarations_plain in Hs.
  - intros n _ Hn. now destruct (plain_tag _ _ _ _ _ _ _ _ _ R n Hn) as (H1 & _ & H2).
Qed.

(* ---- numbers from 0 to 1 *)
Lemma compare_swap x y : SFcompare y x = option_map CompOpp (SFcompare x y).
Proof.
  destruct x as [[|]|[|]| |[|] m e], y as [[|]|[|]| |[|] m' e']; try reflexivity; cbn [SFcompare option_map];
    f_equal; rewrite (Z.compare_antisym e' e); destruct (Z.compare e' e); cbn [CompOpp]; try reflexivity;
    change (Pos.compare_cont Eq m' m) with (Pos.compare m' m); change (Pos.compare_cont Eq m m') with (Pos.compare m m');
    rewrite (Pos.compare_antisym m' m); now destruct (Pos.compare m' m).
Qed.
Lemma compare_nan x y : SFcompare x y = None -> x = S754_nan \/ y = S754_nan.
Proof. destruct x as [[|]|[|]| |[|] m e], y as [[|]|[|]| |[|] m' e']; try easy; try (now left); now right. Qed.
Lemma not_less x y : SFltb x y = false -> SFleb y x = true \/ x = S754_nan \/ y = S754_nan.
Proof.
  unfold SFltb, SFleb. rewrite (compare_swap x y). destruct (SFcompare x y) as [[| |]|] eqn:E; intros H; try easy; try (now left).
  right. now apply compare_nan.
Qed.
Lemma less_eq x y : SFleb x y = true -> SFltb y x = false.
Proof. unfold SFltb, SFleb. rewrite (compare_swap x y). now destruct (SFcompare x y) as [[| |]|]. Qed.
Lemma zero_one : SFleb f_zero f_one = true /\ SFleb f_one f_one = true /\ SFleb f_zero f_zero = true /\ f_zero <> S754_nan /\ f_one <> S754_nan.
Proof. repeat split; discriminate. Qed.

Lemma bound_unit x : in_unit (f64_bound f_zero x f_one) \/ (x = S754_nan /\ f64_bound f_zero x f_one = S754_nan).
Proof.
  destruct zero_one as (H1 & H2 & H3 & N1 & N2).
  unfold f64_bound. destruct (SFltb f_one x) eqn:E1; [left; now split|].
  destruct (SFltb x f_zero) eqn:E2; [left; now split|].
  destruct (not_less _ _ E1) as [L1|[L1|L1]]; [|easy|now right].
  destruct (not_less _ _ E2) as [L2|[L2|L2]]; [|now right|easy]. left. now split.
Qed.
Lemma bound_same x : in_unit x -> f64_bound f_zero x f_one = x.
Proof. intros (H1 & H2). unfold f64_bound. now rewrite (less_eq _ _ H2), (less_eq _ _ H1). Qed.

Lemma unit_outcome P e a s : unit_attribute a = true ->
  meaning P e (a, s) = if (negb (existsb (aid_eqb a) [A_K1; A_K2; A_K3; A_K4])) && str_eqb (strip s) (lit "inherit") then OValue VInherit
    else match p_number P (strip s) with
         | Some (x, true) => OValue (VNumber (f64_bound f_zero x f_one))
         | _ => OInvalid
         end.
Proof.
  intros Ha. destruct a; try discriminate Ha; unfold meaning; rewrite read_value_eq; unfold kept, parse_value; cbn [fst snd existsb];
    repeat match goal with |- context [aid_eqb ?x ?y] => let b := eval vm_compute in (aid_eqb x y) in change (aid_eqb x y) with b end;
    unfold attribute_outcome, eqs; cbn [negb andb orb]; try (destruct (str_eqb (strip s) (lit "inherit")); [reflexivity|]);
    unfold parse_number; destruct (p_number P (strip s)) as [[x [|]]|]; reflexivity.
Qed.
Lemma unit_no_reference P e a ds : unit_attribute a = true -> no_reference P e a ds.
Proof.
  intros Ha (b & s) _ Hb iri fb. cbn [fst] in Hb. subst b. rewrite (unit_outcome P e a s Ha). destruct (_ && _); [easy|].
  destruct (p_number P (strip s)) as [[x [|]]|]; easy.
Qed.
Lemma plain_value_last P e a pre s post v : (forall d, In d post -> fst d <> a) -> meaning P e (a, s) = OValue v ->
  plain_value P e a (pre ++ (a, s) :: post) = Some v.
Proof.
  intros Hp Hm. unfold plain_value, plain_values. rewrite flat_map_app, rev_app_distr. cbn [flat_map fst].
  replace (aid_eqb a a) with true by (symmetry; now apply aid_eqb_eq). rewrite Hm.
  replace (flat_map _ post) with (@nil avalue); [easy|]. symmetry. induction post as [|d post IH]; [easy|]. cbn [flat_map].
  replace (aid_eqb (fst d) a) with false.
  - apply IH. intros x Hx. apply Hp. now right.
  - symmetry. apply not_true_is_false. intros E. apply aid_eqb_eq in E. now apply (Hp d (or_introl eq_refl)).
Qed.

Theorem numbers_clamped P top D : parse_svg P (Some top) = Ok (POk D) ->
  exists t, document_tree D t /\
    shown (fun e ds n => forall a, unit_attribute a = true ->
        (forall x, In (mkAttr (QId a) (VNumber x)) (attributes D n) ->
           in_unit x \/ (x = S754_nan /\ exists s, p_number P s = Some (x, true))) /\
        (forall pre s post x, ds = pre ++ (a, s) :: post -> (forall d, In d post -> fst d <> a) ->
           p_number P (strip s) = Some (x, true) -> strip s <> lit "inherit" -> in_unit x ->
           In (mkAttr (QId a) (VNumber x)) (attributes D n)))
      D (flat_map no_style (svg_of P top)) (t_kids t).
Proof.
  intros E. destruct (parse_run P top D E) as (_ & D1 & D2 & F & F3 & t & ls & R & _).
  exists (final_tree D2 D t). split; [apply (run_document _ _ _ _ _ _ _ _ _ R)|].
  apply (run_facts P top D1 D2 D F F3 t ls R). intros e ds n Hn _ _ Hin Hraw a Ha. rewrite (run_attrs3 _ _ _ _ _ _ _ _ _ R).
  split.
  - intros x Hx. apply (run_no_reference P top D1 D2 D F F3 t ls R e ds n a Hraw) in Hx; [|now apply unit_no_reference].
    apply plain_value_from in Hx. destruct Hx as (s & _ & Hm). rewrite (unit_outcome P e a s Ha) in Hm. destruct (_ && _); [easy|].
    destruct (p_number P (strip s)) as [[y [|]]|] eqn:Ep; try easy. injection Hm as <-.
    destruct (bound_unit y) as [H|(-> & H)]; [now left|]. right. split; [easy|]. exists (strip s). now rewrite H.
  - intros pre s post x -> Hp Hs Hi Hu. apply (run_no_reference P top D1 D2 D F F3 t ls R e _ n a Hraw); [now apply unit_no_reference|].
    apply plain_value_last; [easy|]. rewrite (unit_outcome P e a s Ha), Hs, (bound_same x Hu).
    destruct (str_eqb (strip s) (lit "inherit")) eqn:Es; [apply str_eqb_eq in Es; easy|]. now rewrite andb_false_r.
Qed.

(* ---- marker *)
Lemma for_each_flat {A B S} (body : A -> S -> res S) (body' : B -> S -> res S) (f : B -> list A) l :
  (forall y s, for_each body (f y) s = body' y s) -> forall s, for_each body (flat_map f l) s = for_each body' l s.
Proof.
  intros H. assert (Happ : forall l1 l2 s, for_each body (l1 ++ l2) s = bind (for_each body l1 s) (fun s => for_each body l2 s)).
  { induction l1 as [|x l1 IH]; intros l2 s; [easy|]. cbn [app for_each]. destruct (body x s); cbn [bind]; [apply IH|easy|easy]. }
  induction l as [|y l IH]; intros s; [easy|]. cbn [flat_map for_each]. rewrite Happ, H. destruct (body' y s); cbn [bind]; [apply IH|easy|easy].
Qed.
Lemma for_each_ext {A S} (f g : A -> S -> res S) l : (forall x s, f x s = g x s) -> forall s, for_each f l s = for_each g l s.
Proof. intros H. induction l as [|x l IH]; intros s; [easy|]. cbn. rewrite H. destruct (g x s); cbn; try easy. Qed.
Lemma for_each_map {A B S} (f : A -> S -> res S) (g : B -> A) l : forall s, for_each f (map g l) s = for_each (fun x => f (g x)) l s.
Proof. induction l as [|x l IH]; intros s; [easy|]. cbn. destruct (f (g x) s); cbn; try easy. Qed.
Lemma spelled P d node s :
  for_each (fun d s => parse_css_attribute_value P (fst d) (snd d) node s) (spell_out d) s =
  parse_css_attribute_value P (fst d) (snd d) node s.
Proof.
  unfold spell_out. destruct (str_eqb (fst d) (lit "marker")) eqn:E.
  - apply str_eqb_eq in E. rewrite E. cbn [for_each fst snd]. unfold parse_css_attribute_value.
    replace (attribute_from_str (lit "marker")) with (Ok (Some A_Marker) : res (option aid)) by (vm_compute; reflexivity).
    replace (attribute_from_str (lit "marker-start")) with (Ok (Some A_MarkerStart) : res (option aid)) by (vm_compute; reflexivity).
    replace (attribute_from_str (lit "marker-mid")) with (Ok (Some A_MarkerMid) : res (option aid)) by (vm_compute; reflexivity).
    replace (attribute_from_str (lit "marker-end")) with (Ok (Some A_MarkerEnd) : res (option aid)) by (vm_compute; reflexivity).
    cbn [bind]. repeat match goal with |- context [is_presentation ?x] => let b := eval vm_compute in (is_presentation x) in change (is_presentation x) with b end.
    repeat match goal with |- context [aid_eqb ?x ?y] => let b := eval vm_compute in (aid_eqb x y) in change (aid_eqb x y) with b end.
    cbn [negb andb]. destruct (parse_svg_attribute_value P A_MarkerStart (snd d) node s) as [s1|p|]; cbn [bind]; try easy.
    destruct (parse_svg_attribute_value P A_MarkerMid (snd d) node s1) as [s2|p|]; cbn [bind]; try easy.
    now destruct (parse_svg_attribute_value P A_MarkerEnd (snd d) node s2) as [s3|p|].
  - cbn [for_each]. now destruct (parse_css_attribute_value P (fst d) (snd d) node s).
Qed.
Lemma spelled_rules P rules top path node s : parse_rules P (map spell_out_rule rules) top path node s = parse_rules P rules top path node s.
Proof.
  unfold parse_rules. rewrite for_each_map. apply for_each_ext. intros r s0. cbn [r_matches spell_out_rule r_declarations].
  destruct (r_matches r top path); [|easy]. apply for_each_flat. intros d s1. apply spelled.
Qed.
Lemma process_ext P r1 r2 top f : (forall path node s, parse_rules P r1 top path node s = parse_rules P r2 top path node s) ->
  forall x path p s, process_node P r1 top path x p s = process_node (with_sheet f P) r2 top path x p s.
Proof.
  intros H. induction x as [ns local attrs kids IH|s|s|] using xml_ind'; intros path p s0; cbn [process_node]; try reflexivity.
  destruct (negb (ostr_eqb ns (Some ns_svg))); [reflexivity|].
  destruct (element_from_str local) as [[id|]|pp|]; cbn [bind]; try reflexivity.
  destruct (create_element (QId id) (fst s0)) as [r|pp|]; cbn [bind]; try reflexivity.
  change (parse_attributes (with_sheet f P)) with (parse_attributes P).
  change (parse_rules (with_sheet f P)) with (parse_rules P).
  change (parse_style_attribute (with_sheet f P)) with (parse_style_attribute P).
  destruct (parse_attributes P attrs (fst r) (snd r, snd s0)) as [s1|pp|]; cbn [bind]; try reflexivity.
  rewrite H. destruct (parse_rules P r2 top path (fst r) s1) as [s2|pp|]; cbn [bind]; try reflexivity.
  destruct (match plain_attribute (lit "style") attrs with Some v => parse_style_attribute P v (fst r) s2 | None => Ok s2 end) as [s3|pp|];
    cbn [bind]; try reflexivity.
  destruct (append_node p (fst r) s3) as [s4|pp|]; cbn [bind]; try reflexivity.
  assert (G : forall l i s, Forall (fun x => forall path p s, process_node P r1 top path x p s = process_node (with_sheet f P) r2 top path x p s) l ->
    (fix go i l s := match l with [] => Ok (POk s) | c :: t =>
        r0 <- process_node P r1 top (path ++ [i]) c (fst r) s ;; match r0 with POk s => go (S i) t s | PErr er => Ok (PErr er) end end) i l s =
    (fix go i l s := match l with [] => Ok (POk s) | c :: t =>
        r0 <- process_node (with_sheet f P) r2 top (path ++ [i]) c (fst r) s ;; match r0 with POk s => go (S i) t s | PErr er => Ok (PErr er) end end) i l s).
  { clear IH. induction l as [|c l IHl]; intros i s HF; [reflexivity|]. inversion HF as [|? ? Hc HF']; subst. rewrite Hc.
    destruct (process_node (with_sheet f P) r2 top (path ++ [i]) c (fst r) s) as [[s5|er]|pp|]; cbn [bind]; try reflexivity. now apply IHl. }
  rewrite (G kids 0 s4 IH). reflexivity.
Qed.
Lemma process_nodes_ext P r1 r2 top f : (forall path node s, parse_rules P r1 top path node s = parse_rules P r2 top path node s) ->
  forall l path i p s, process_nodes P r1 top path i l p s = process_nodes (with_sheet f P) r2 top path i l p s.
Proof.
  intros H. induction l as [|c l IH]; intros path i p s; [reflexivity|]. cbn [process_nodes].
  rewrite (process_ext P r1 r2 top f H). destruct (process_node (with_sheet f P) r2 top (path ++ [i]) c p s) as [[s5|er]|pp|]; cbn [bind]; try reflexivity.
  apply IH.
Qed.
Theorem marker_in_sheet P doc : parse_svg (with_sheet (fun l => map spell_out_rule (p_sheet P l)) P) doc = parse_svg P doc.
Proof.
  destruct doc as [top|]; [|reflexivity]. unfold parse_svg, parse_tree, resolve_css.
  destruct new_document as [D0|pp|]; cbn [bind]; try reflexivity. set (f := fun l => map spell_out_rule (p_sheet P l)).
  change (p_sheet (with_sheet f P) (flat_map css_texts top)) with (map spell_out_rule (p_sheet P (flat_map css_texts top))).
  rewrite <- (process_nodes_ext P (p_sheet P (flat_map css_texts top)) (map spell_out_rule (p_sheet P (flat_map css_texts top))) top f).
  - reflexivity.
  - intros. symmetry. apply spelled_rules.
Qed.

Lemma named_marker s : attribute_named s = Some A_Marker -> s = lit "marker".
Proof.
  unfold attribute_named. destruct (attribute_from_str s) as [[a|]|p|] eqn:E; try easy. intros [= ->].
  pose proof (proj2 (proj1 attribute_bijection A_Marker s) E) as H.
  assert (H2 : attribute_as_str A_Marker = Ok (lit "marker")) by (vm_compute; reflexivity). congruence.
Qed.
Lemma css_marker s : css_property s = Some A_Marker -> s = lit "marker".
Proof.
  unfold css_property. destruct (attribute_named s) as [b|] eqn:E; [|easy]. destruct (_ || _); [|easy]. intros [= ->]. now apply named_marker.
Qed.
Lemma no_marker_declared P rules top path attrs : (forall x, In x attrs -> x_name x <> lit "marker") ->
  (forall v d, plain_attribute (lit "style") attrs = Some v -> In d (p_declarations P v) -> fst d <> lit "marker") ->
  forall s, ~ In (A_Marker, s) (declarations P rules top path attrs).
Proof.
  intros H1 H2 s. unfold declarations. rewrite !in_app_iff. intros [H|[H|H]].
  - unfold attribute_decls in H. apply filter_In in H. destruct H as (H & _). unfold svg_attributes in H. apply in_flat_map in H.
    destruct H as (x & Hx & H). destruct (svg_namespace (x_ns x)); [|easy]. destruct (attribute_named (x_name x)) as [a|] eqn:E; [|easy].
    destruct H as [[= -> _]|[]]. apply named_marker in E. now apply (H1 x Hx).
  - unfold sheet_decls in H. apply in_flat_map in H. destruct H as (r & _ & H). destruct (r_matches r top path); [|easy].
    apply in_flat_map in H. destruct H as (d & _ & H). unfold sheet_decl in H. destruct (css_property (fst d)) as [b|]; [|easy].
    destruct (aid_eqb b A_Marker) eqn:Em.
    + apply aid_eqb_eq in Em. subst b. destruct H as [[=]|[[=]|[[=]|[]]]].
    + assert (H' : In (A_Marker, s) [(b, snd d)]) by (destruct b; first [exact H|discriminate Em]). destruct H' as [[= -> _]|[]].
      discriminate Em.
  - unfold style_decls in H. destruct (plain_attribute (lit "style") attrs) as [v|] eqn:Ev; [|easy]. apply in_flat_map in H.
    destruct H as (d & Hd & H). unfold style_decl in H. destruct (css_property (fst d)) as [b|] eqn:E; [|easy]. destruct H as [[= -> _]|[]].
    apply css_marker in E. now apply (H2 v d).
Qed.
Theorem no_marker_from_sheet P top D t n v : parse_svg P (Some top) = Ok (POk D) ->
  (forall attrs x, In attrs (flat_map xml_attributes top) -> In x attrs -> x_name x <> lit "marker") ->
  (forall attrs v d, In attrs (flat_map xml_attributes top) -> plain_attribute (lit "style") attrs = Some v ->
     In d (p_declarations P v) -> fst d <> lit "marker") ->
  document_tree D t -> In n (preorder t) -> ~ In (mkAttr (QId A_Marker) v) (attributes D n).
Proof.
  intros E H1 H2 Ht Hn Hv. destruct (parse_run P top D E) as (_ & D1 & D2 & F & F3 & t0 & ls & R & _).
  rewrite (document_unique D t (final_tree D2 D t0) Ht) in Hn by now apply (run_document P top D1 D2 D F F3 t0 ls).
  destruct (is_element D n) eqn:He.
  - destruct (document_node _ _ _ _ _ _ _ _ _ R n Hn) as [->|[(_ & e & ds & E1 & E2 & E3)|H]].
    + destruct (root_not_element _ _ _ _ _ _ _ _ _ R). congruence.
    + rewrite (run_attrs3 _ _ _ _ _ _ _ _ _ R) in Hv.
      destruct (run_from P top D1 D2 D F F3 t0 ls R e ds n (mkAttr (QId A_Marker) v)) as (a & s & Ha & Hs); [|exact E3|exact Hv|].
      * rewrite preorder_eta in Hn. destruct (run_tree _ _ _ _ _ _ _ _ _ R) as (_ & Hr & Hk). destruct Hn as [Hn|Hn].
        { destruct (root_not_element _ _ _ _ _ _ _ _ _ R). congruence. }
        rewrite Hk in Hn. now apply keep_nodes_sub in Hn.
      * cbn [a_name] in Ha. injection Ha as <-. apply parts_element in E2. destruct E2 as (_ & E2). apply svg_element_from in E2.
        destruct E2 as (attrs & q & Hq & _ & ->). revert Hs. apply no_marker_declared; [intros x; now apply H1|intros w d; now apply H2].
    + unfold is_element in He. destruct H as [(H & _)|H]; rewrite H in He; easy.
  - destruct (plain_tag _ _ _ _ _ _ _ _ _ R n He) as (E0 & _). rewrite E0 in Hv. easy.
Qed.

(* ---- users *)
Lemma laid_keep Q D D' l ts x : laid_out Q D l ts -> In x (flat_map preorder ts) -> is_text D x = false ->
  In x (flat_map preorder (keep_nodes (fun n => is_text D n && is_empty (text_of D' n)) ts)).
Proof.
  induction 1 as [|e id ds ks l n ts us H1 H2 H3 H4 Hk IHk Hl IHl|s l n us H1 H2 Hl IHl|s l n us H1 H2 Hl IHl]; intros Hx Ht;
    unfold keep_nodes; cbn [flat_map t_node preorder app] in *.
  - easy.
  - replace (is_text D n) with false by (unfold is_text; now rewrite H1). cbn [andb app]. rewrite drained_kids.
    cbn [flat_map preorder app]. destruct Hx as [<-|Hx]; [now left|right]. rewrite in_app_iff in *. destruct Hx as [Hx|Hx].
    + left. now apply IHk.
    + right. now apply IHl.
  - destruct Hx as [->|Hx]; [unfold is_text in Ht; rewrite H1 in Ht; easy|]. rewrite flat_map_app, in_app_iff. right. now apply IHl.
  - replace (is_text D n) with false by (unfold is_text; now rewrite H1). cbn [andb app flat_map preorder drained].
    destruct Hx as [<-|Hx]; [now left|right]. now apply IHl.
Qed.
Theorem users_in_tree P top D t n u : parse_svg P (Some top) = Ok (POk D) -> existsb (style_refers P) (svg_of P top) = false ->
  document_tree D t -> In u (linked_nodes D n) -> In u (preorder t).
Proof.
  intros E Hq Ht Hu. destruct (parse_run P top D E) as (_ & D1 & D2 & F & F3 & t0 & ls & R & _).
  rewrite (document_unique D t (final_tree D2 D t0) Ht) by now apply (run_document P top D1 D2 D F F3 t0 ls).
  pose proof (shows_inv D F3 (tame_reachable D (run_tame P top D1 D2 D F F3 t0 ls R)) (run_shows P top D1 D2 D F F3 t0 ls R)) as I.
  assert (Hc : 0 < count_links n (attributes D u)).
  { rewrite <- (li_sym D (iv_link D F3 I)). unfold cnt. apply (count_occ_In Nat.eq_dec). exact Hu. }
  apply count_links_pos in Hc. destruct Hc as (x & Hx & Tx). rewrite (run_attrs3 _ _ _ _ _ _ _ _ _ R) in Hx.
  assert (Hel : is_element D2 u = true).
  { destruct (is_element D2 u) eqn:He; [easy|]. destruct (iv_plain _ _ (rn_inv2 _ _ _ _ _ _ _ _ _ R) u He) as (E0 & _). rewrite E0 in Hx. easy. }
  destruct (resolved_from _ _ _ _ _ _ (rn_resolved _ _ _ _ _ _ _ _ _ R) Hx) as [H|(d & Hd & Hdn & _)].
  { pose proof (rn_plain _ _ _ _ _ _ _ _ _ R u x H). congruence. }
  pose proof (rn_quiet _ _ _ _ _ _ _ _ _ R Hq d Hd) as Hin. rewrite <- Hdn in Hin.
  rewrite preorder_eta. destruct (run_tree _ _ _ _ _ _ _ _ _ R) as (_ & Hr & Hk). rewrite preorder_eta in Hin. destruct Hin as [Hin|Hin].
  - left. rewrite <- Hin. unfold final_tree. apply drained_node.
  - right. rewrite Hk. destruct (run_facts P top D1 D2 D F F3 t0 ls R (fun _ _ _ => True)) as (Hl & _); [easy|].
    apply (laid_keep _ _ _ _ _ u Hl Hin). unfold is_text, is_element in *. destruct (node_type D2 u); easy.
Qed.

(* ---- a parsed document is a document made with the API *)
Theorem parsed_reachable P top D : parse_svg P (Some top) = Ok (POk D) -> reachable_leafy D /\ reachable_tame D /\
  (existsb (style_refers P) (svg_of P top) = false -> reachable_orderly D).
Proof.
  intros E. destruct (parse_run P top D E) as (_ & D1 & D2 & F & F3 & t & ls & R & _).
  split; [apply R|]. split; [now apply (run_tame P top D1 D2 D F F3 t ls)|apply R].
Qed.

Theorem svg_or_error P top : match first_element (svg_of P top) with
  | Some E_Svg => exists D F pre n post, parse_svg P (Some top) = Ok (POk D) /\ shows (lk D) F /\
      children_of F (droot D) = pre ++ n :: post /\ (forall x, In x pre -> is_element D x = false) /\
      is_element D n = true /\ tag_name D n = QId E_Svg /\ svg_element D = Ok (Some n)
  | _ => parse_svg P (Some top) = Ok (PErr NoSvgElement)
  end.
Proof.
  destruct (first_element (svg_of P top)) as [e|] eqn:E; [|apply parse_bad; rewrite E; discriminate].
  destruct (eid_eqb e E_Svg) eqn:Ee.
  - apply eid_eqb_eq in Ee. subst e. destruct (parse_good P top E) as (D1 & D2 & D & F & F3 & t & ls & _ & _ & Ep).
    destruct (starts_with_svg P top D Ep) as (F' & pre & n & post & H). now exists D, F', pre, n, post.
  - assert (H : parse_svg P (Some top) = Ok (PErr NoSvgElement)).
    { apply parse_bad. rewrite E. intros [= ->]. discriminate Ee. }
    destruct e; first [exact H|discriminate Ee].
Qed.
Theorem stages P top : (exists D, parse_tree P top = Ok (POk D)) <-> (exists D, parse_svg P (Some top) = Ok (POk D)).
Proof.
  split.
  - intros (D & E). destruct (tree_run P top D E) as (D1 & D3 & F & F3 & t & ls & _ & E'). now exists D3.
  - intros (D & E). destruct (parse_run P top D E) as (_ & D1 & D2 & F & F3 & t & ls & _ & E'). now exists D2.
Qed.
(* for examples *)
Lemma parsed_case P top (Q : dom -> Prop) :
  match parse_svg P (Some top) with Ok (POk D) => Q D | _ => False end -> exists D, parse_svg P (Some top) = Ok (POk D) /\ Q D.
Proof. destruct (parse_svg P (Some top)) as [[D|e]|p|]; try easy. intros H. now exists D. Qed.
Lemma parsed_case_ok P top :
  match parse_svg P (Some top) with Ok (POk D) => true | _ => false end = true -> exists D, parse_svg P (Some top) = Ok (POk D).
Proof. destruct (parse_svg P (Some top)) as [[D|e]|p|]; try easy. intros H. now exists D. Qed.
