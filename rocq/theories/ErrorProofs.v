(* Proofs about error messages. *)
From Coq Require Import String List Bool NArith PeanoNat Lia Decimal DecimalFacts DecimalN.
From Verif Require Import Base Ids Names Data Attrs NodeApi AttrFacts AttrSpec History InvProofs HistoryProofs ApiProofs Parser ParserSpec ParserStatements
  ParserApi Errors ErrorSpec.
Import ListNotations.
Open Scope string_scope.
Open Scope nat_scope.
Open Scope list_scope.

Lemma digits_inj : forall u v, digits u = digits v -> u = v.
Proof. induction u as [|u IH|u IH|u IH|u IH|u IH|u IH|u IH|u IH|u IH|u IH]; intros [] E; try discriminate E; cbn [digits] in E; try reflexivity;
  injection E as E; now rewrite (IH _ E). Qed.
Lemma digits_only u c : In c (digits u) -> (48 <= c <= 57)%N.
Proof. induction u; cbn [digits]; intros H; [contradiction|..]; destruct H as [<-|H]; try lia; auto. Qed.
Lemma number_inj a b : digits (N.to_uint a) = digits (N.to_uint b) -> a = b.
Proof. intros E. apply digits_inj in E. rewrite <- (DecimalN.Unsigned.of_to a), <- (DecimalN.Unsigned.of_to b). now rewrite E. Qed.
Lemma colon_split : forall a b (x y : str), ~ In 58%N a -> ~ In 58%N b -> a ++ 58%N :: x = b ++ 58%N :: y -> a = b /\ x = y.
Proof.
  induction a as [|c a IH]; intros [|d b] x y Ha Hb E; cbn in E.
  - injection E as ->. now split.
  - injection E as <- _. exfalso. apply Hb. now left.
  - injection E as -> _. exfalso. apply Ha. now left.
  - injection E as -> E. destruct (IH b x y) as (-> & ->); [| |exact E|now split]; intros H; [apply Ha|apply Hb]; now right.
Qed.
Lemma pos_inj p q : pos_text p = pos_text q -> p = q.
Proof.
  destruct p as [r c], q as [r' c']. unfold pos_text. cbn [tp_row tp_col]. change (lit ":") with [58%N]. cbn [app]. intros E.
  apply colon_split in E; [|intros H; apply digits_only in H; lia|intros H; apply digits_only in H; lia].
  destruct E as (E1 & E2). apply number_inj in E1, E2. now subst.
Qed.
Lemma texts_differ e e' : own_error e -> own_error e' -> parser_error_text e = parser_error_text e' -> e = e'.
Proof.
  intros O O' E. destruct e as [|p|e|p|m], e' as [|p'|e'|p'|m']; try contradiction; try reflexivity; cbn [parser_error_text] in E;
    try (destruct e; discriminate E); try (destruct e'; discriminate E); try discriminate E.
  - apply app_inv_head in E. now rewrite (pos_inj _ _ E).
  - destruct e, e'; try reflexivity; discriminate E.
  - apply app_inv_head in E. now rewrite (pos_inj _ _ E).
Qed.
Lemma checked_text D n a : reachable D -> is_element D n = true ->
  ((exists e, set_attribute_checked n a D = Ok (D, RErr e) /\ error_text e = lit "the element must have an id") <->
     exists t, link_target (a_value a) = Some t /\ id_of D t = []) /\
  ((exists e, set_attribute_checked n a D = Ok (D, RErr e) /\ error_text e = lit "element crosslink") <->
     exists t, link_target (a_value a) = Some t /\ id_of D t <> [] /\ (id_of D t = id_of D n \/ 0 < uses D t n)) /\
  (forall D' e, set_attribute_checked n a D = Ok (D', RErr e) -> D' = D /\
     (error_text e = lit "the element must have an id" \/ error_text e = lit "element crosslink")).
Proof.
  intros H He. pose proof (checked_cases D n a H He) as C. unfold refused in C.
  assert (N : lit "the element must have an id" <> lit "element crosslink") by discriminate.
  destruct (link_target (a_value a)) as [t|] eqn:Et.
  2: { destruct C as (D' & C & _). rewrite C. split; [|split].
       - split; [intros (e & X & _); discriminate X|intros (t & X & _); discriminate X].
       - split; [intros (e & X & _); discriminate X|intros (t & X & _); discriminate X].
       - intros D2 e X. discriminate X. }
  destruct (str_eqb (id_of D t) []) eqn:E1.
  { apply str_eqb_eq in E1. rewrite C. split; [|split].
    - split; [intros _; now exists t|intros _; now exists ElementMustHaveAnId].
    - split; [intros (e & X & Y); injection X as <-; now contradiction N|intros (t' & X & Y & _); injection X as <-; contradiction].
    - intros D2 e X. injection X as <- <-. split; [reflexivity|now left]. }
  assert (E1' : id_of D t <> []) by (intros X; rewrite X in E1; discriminate E1).
  assert (K : (str_eqb (id_of D n) (id_of D t) || Nat.ltb 0 (uses D t n)) = true <-> (id_of D t = id_of D n \/ 0 < uses D t n)).
  { rewrite orb_true_iff, str_eqb_eq, Nat.ltb_lt. intuition congruence. }
  destruct (str_eqb (id_of D n) (id_of D t) || Nat.ltb 0 (uses D t n)) eqn:E2.
  - assert (C' : set_attribute_checked n a D = Ok (D, RErr ElementCrosslink)).
    { destruct (str_eqb (id_of D n) (id_of D t)); [exact C|]. cbn [orb] in E2. rewrite E2 in C. exact C. }
    rewrite C'. split; [|split].
    + split; [intros (e & X & Y); injection X as <-; symmetry in Y; now contradiction N|intros (t' & X & Y); injection X as <-; contradiction].
    + split; [intros _; exists t; split; [reflexivity|]; split; [exact E1'|now apply K]|intros _; now exists ElementCrosslink].
    + intros D2 e X. injection X as <- <-. split; [reflexivity|now right].
  - apply orb_false_iff in E2. destruct E2 as (E2 & E3). rewrite E2, E3 in C. destruct C as (D' & C & _). rewrite C. split; [|split].
    + split; [intros (e & X & _); discriminate X|intros (t' & X & Y); injection X as <-; contradiction].
    + split; [intros (e & X & _); discriminate X|intros (t' & X & _ & Y); injection X as <-; apply K in Y; discriminate Y].
    + intros D2 e X. discriminate X.
Qed.
Lemma from_str_cases P x : exists r, from_str P x = Ok r /\
  match x, r with
  | inr m, inr e => parser_error_text e = m
  | inl top, inl D => first_element (svg_of P top) = Some E_Svg /\ parse_svg P (Some top) = Ok (POk D)
  | inl top, inr e => first_element (svg_of P top) <> Some E_Svg /\ parser_error_text e = lit "the document does not have an SVG element"
  | inr _, inl _ => False
  end.
Proof.
  destruct x as [top|m]; [|eexists; split; [reflexivity|reflexivity]]. unfold from_str. pose proof (svg_or_error P top) as C.
  destruct (first_element (svg_of P top)) as [e|] eqn:Ef; [destruct e|].
  all: try (rewrite C; eexists; split; [reflexivity|]; split; [discriminate|reflexivity]).
  destruct C as (D & F & pre & n & post & E & _). rewrite E. eexists. split; [reflexivity|]. cbn. now split.
Qed.
Lemma from_str_errors P x e : from_str P x = Ok (inr e) -> e = PeNoSvgElement \/ exists m, x = inr m /\ e = PeRoXmlError m.
Proof.
  destruct x as [top|m]; intros H; [|injection H as <-; right; now exists m]. left.
  destruct (from_str_cases P (inl top)) as (r & E & C). rewrite E in H. injection H as ->. destruct C as (Hf & Ht).
  unfold from_str in E. destruct (parse_svg P (Some top)) as [[D|[]]| |] eqn:Ep; try discriminate E; cbn [bind] in E; injection E as <-; [reflexivity|].
  discriminate Ht.
Qed.
