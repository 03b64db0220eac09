(* Where the values of a parsed document come from, and their kinds. *)
From Coq Require Import String List Bool PeanoNat NArith Lia.
From Verif Require Import Base Ids Links Tree Iter ForestSpec TreeSpec Data Attrs Slab NodeApi AttrSpec Doc History DocSpec
  ListFacts TreeProofs ForestFacts IterSpec IterProofs AttrFacts LinkProofs SlabProofs InvProofs
  HistoryProofs ApiProofs DocApi Names Types Text TextSpec
  TextProofs TextApi Parser ValueSpec ValueProofs ParserSpec ParserProofs ParserTree ParserLinks ParserApi ParserFacts ParserMeaning ParserStatements.
Import ListNotations.
Open Scope string_scope.
Open Scope nat_scope.
Open Scope list_scope.

Definition given (D : dom) (t : tree) (d : link) : avalue :=
  match first_with_id D t (l_iri d) with Some x => pointing d x | None => instead d end.

Lemma only_set_from D D' n a v m x : only_set D D' n a v -> In x (attributes D' m) ->
  In x (attributes D m) \/ (m = n /\ x = mkAttr (QId a) v).
Proof.
  intros (_ & H1 & H2) Hx. destruct (Nat.eq_dec m n) as [->|E]; [|rewrite (H2 m E) in Hx; now left].
  rewrite H1, in_app_iff in Hx. destruct Hx as [Hx|[<-|[]]]; [|now right]. left. unfold others in Hx. now apply filter_In in Hx.
Qed.
Lemma resolves_value t d D D' m x : resolves t d D D' -> In x (attributes D' m) ->
  In x (attributes D m) \/
  (m = l_node d /\ x = mkAttr (QId (l_attr d)) (given D t d) /\ (l_iri d = [] -> first_with_id D t (l_iri d) = None)).
Proof.
  unfold resolves, given. destruct (first_with_id D t (l_iri d)) as [y|] eqn:Ef.
  - destruct (refused D (l_node d) (mkAttr (QId (l_attr d)) (VLink y))) eqn:Er; [intros ->; now left|]. intros H Hx.
    destruct (only_set_from _ _ _ _ _ _ _ H Hx) as [|(-> & ->)]; [now left|]. right. split; [easy|]. split; [easy|].
    intros E. exfalso. unfold refused in Er. cbn [a_value link_target] in Er. apply find_some in Ef. destruct Ef as (_ & Ef).
    apply str_eqb_eq in Ef. rewrite Ef, E in Er. cbn in Er. discriminate Er.
  - intros H Hx. destruct (only_set_from _ _ _ _ _ _ _ H Hx) as [|(-> & ->)]; [now left|]. now right.
Qed.
Lemma resolved_value t ls D D' m x : resolved t ls D D' -> In x (attributes D' m) ->
  In x (attributes D m) \/
  exists d, In d ls /\ m = l_node d /\ x = mkAttr (QId (l_attr d)) (given D t d) /\
    (l_iri d = [] -> first_with_id D t (l_iri d) = None).
Proof.
  induction 1 as [|d ls D D1 D' H1 H IH]; intros Hx; [now left|]. destruct (IH Hx) as [Hy|(d' & Hd & Hm & Hn & Hv)].
  - destruct (resolves_value _ _ _ _ _ _ H1 Hy) as [|Q]; [now left|]. right. exists d. split; [now left|easy].
  - right. exists d'. split; [now right|]. split; [easy|]. unfold given in *.
    rewrite (first_same D D1) in Hn, Hv by now apply (resolves_same t d). easy.
Qed.

Theorem values_from P top D : parse_svg P (Some top) = Ok (POk D) ->
  exists t, document_tree D t /\
    shown (fun e ds n => forall a v, In (mkAttr (QId a) v) (attributes D n) ->
        exists s, In (a, s) ds /\ comes_from D t n a (read_value P e a s) v)
      D (flat_map no_style (svg_of P top)) (t_kids t).
Proof.
  intros E. destruct (parse_run P top D E) as (_ & D1 & D2 & F & F3 & t & ls & R & _).
  exists (final_tree D2 D t). split; [apply (run_document _ _ _ _ _ _ _ _ _ R)|].
  apply (run_facts P top D1 D2 D F F3 t ls R). intros e ds n Hn _ _ Hin (Ha & Hm) a v Hx.
  rewrite (run_attrs3 _ _ _ _ _ _ _ _ _ R) in Hx.
  destruct (resolved_value _ _ _ _ _ _ (rn_resolved _ _ _ _ _ _ _ _ _ R) Hx) as [H|(d & Hd & Hdn & Hda & Hde)].
  - apply Ha in H. destruct H as (b & [= <-] & Hv). apply plain_value_from in Hv. destruct Hv as (s & Hs & Hv).
    exists s. split; [easy|]. unfold meaning in Hv. cbn [fst snd] in Hv. now rewrite Hv.
  - assert (H : In d (mine n ls)) by (unfold mine; apply filter_In; split; [easy|]; apply Nat.eqb_eq; easy).
    rewrite Hm in H. unfold references in H. apply in_flat_map in H. destruct H as ((b & s) & Hs & H).
    destruct (meaning P e (b, s)) as [w| | |iri fb] eqn:Em; try easy. destruct H as [<-|[]]. cbn [l_attr fst l_iri] in *.
    injection Hda as <- ->. exists s. split; [easy|]. unfold meaning in Em. cbn [fst snd] in Em. rewrite Em. cbn [comes_from].
    unfold given. cbn [l_iri].
    destruct iri as [|c iri]; [|rewrite (run_first P top D1 D2 D F F3 t ls R) by easy; easy]. exfalso. specialize (Hde eq_refl).
    pose proof (rn_inv1 _ _ _ _ _ _ _ _ _ R) as I1. unfold first_with_id in Hde. rewrite preorder_eta in Hde. cbn [find] in Hde.
    destruct (iv_plain _ _ I1 (t_node t)) as (_ & _ & E4).
    { unfold is_element. replace (node_type D1 (t_node t)) with NRoot; [easy|]. symmetry.
      apply (iv_root _ _ I1); rewrite (rn_root _ _ _ _ _ _ _ _ _ R); [|easy]. apply I1. }
    rewrite E4 in Hde. cbn in Hde. discriminate Hde.
Qed.

(* ---- kinds *)
Lemma grammar_type e a : match snd (grammar e a) with
  | TIri => a = A_Href
  | TPaint => a = A_Fill \/ a = A_Stroke
  | TFuncIri => a <> A_Href /\ a <> A_Fill /\ a <> A_Stroke
  | _ => True
  end.
Proof.
  replace (grammar e a) with (if text_positions e && existsb (aid_eqb a) [A_X; A_Y; A_Dx; A_Dy] then ([], TLengthList)
    else if animates e && aid_eqb a A_Fill then ([], TString) else row a) by reflexivity.
  destruct (text_positions e && _); [exact I|]. destruct (animates e && _); [exact I|].
  destruct a; match goal with |- context [row ?x] => let b := eval cbv -[lit] in (row x) in change (row x) with b end; cbn [snd];
    try exact I; try reflexivity; try (now left); try (now right); repeat split; discriminate.
Qed.
Lemma read_kind P e a s D t n v : comes_from D t n a (read_value P e a s) v -> In (kind_of v) (kinds e a).
Proof.
  unfold read_value, kinds. pose proof (grammar_type e a) as Ht. destruct (grammar e a) as [ws ty]. cbn [fst snd] in *.
  generalize (match a with A_Unicode => s | _ => bare s end). clear s. intros s. rewrite in_app_iff.
  destruct (find _ ws) as [w|] eqn:Ef.
  { cbn [comes_from]. intros ->. left. apply find_some in Ef. apply (in_map (fun w => kind_of (snd w)) ws w), Ef. }
  intros H. right. destruct ty; cbn [read_type type_kinds] in *; unfold checked in H;
    repeat match type of H with
    | comes_from _ _ _ _ (match ?x with _ => _ end) _ => destruct x
    | comes_from _ _ _ _ (OValue (if ?x then _ else _)) _ => destruct x
    end; cbn [comes_from] in H; try contradiction; try (subst v; cbn; auto 10; fail).
  - destruct (first_with_id D t iri) as [x|]; subst v.
    + unfold pointing. destruct Ht as [->| ->]; cbn; auto 10.
    + unfold instead. destruct Ht as [->| ->]; destruct fb as [[]|]; cbn; auto 10.
  - subst a. destruct (first_with_id D t s0) as [x|]; subst v; cbn; auto.
  - destruct Ht as (H1 & H2 & H3). destruct (first_with_id D t s0) as [x|]; subst v.
    + left. unfold pointing. cbn [l_attr]. destruct a; try reflexivity; contradiction.
    + right. left. unfold instead. cbn [l_attr l_fallback]. destruct a; try reflexivity; contradiction.
Qed.
Theorem values_kinds P top D t n e a v : parse_svg P (Some top) = Ok (POk D) -> document_tree D t -> In n (preorder t) ->
  tag_name D n = QId e -> In (mkAttr (QId a) v) (attributes D n) -> In (kind_of v) (kinds e a).
Proof.
  intros E Ht Hn Htag Hx. destruct (values_from P top D E) as (t' & Ht' & Hs). rewrite (document_unique D t t' Ht Ht') in Hn.
  destruct (parse_run P top D E) as (_ & D1 & D2 & F & F3 & t0 & ls & R & _).
  assert (He : is_element D n = true).
  { destruct (is_element D n) eqn:He; [easy|]. destruct (plain_tag _ _ _ _ _ _ _ _ _ R n He) as (Ha & _). rewrite Ha in Hx. easy. }
  rewrite preorder_eta in Hn. destruct Hn as [Hn|Hn].
  { destruct Ht' as (F' & _ & _ & Hr). destruct (root_not_element _ _ _ _ _ _ _ _ _ R). congruence. }
  destruct (shown_node _ _ _ _ Hs n Hn) as [(_ & e' & ds & E1 & _ & E3)|H].
  - rewrite Htag in E1. injection E1 as <-. destruct (E3 a v Hx) as (s & _ & Hv). exact (read_kind P e a s D t' n v Hv).
  - unfold is_element in He. destruct H as [(H & _)|H]; rewrite H in He; easy.
Qed.
