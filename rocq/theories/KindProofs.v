(* Default values, tests on values, conversions. *)
From Coq Require Import String List Bool PeanoNat NArith ZArith Lia.
From Coq Require Import SpecFloat.
From Verif Require Import Base Ids Names Links ForestSpec TreeSpec Iter IterSpec Data Attrs AttrFacts NodeApi Types Text Parser ValueSpec ParserSpec
  ValueProofs ParserValues Values InitialSpec.
Import ListNotations.
Open Scope string_scope.
Open Scope list_scope.

Definition str_or_nil (r : res str) : str := match r with Ok s => s | _ => [] end.

Lemma default_initial a s : attribute_as_str a = Ok s -> default_value a = option_map snd (initial s).
Proof.
  intros H. replace s with (str_or_nil (attribute_as_str a)) by now rewrite H.
  clear. destruct a; vm_compute; reflexivity.
Qed.

Lemma initial_read P e a s text v : reads_constants P -> attribute_as_str a = Ok s -> initial s = Some (text, v) ->
  a <> A_StrokeMiterlimit -> a <> A_GlyphOrientationHorizontal -> (animates e = true -> a <> A_Fill) ->
  parse_value P e a (lit text) = OValue v.
Proof.
  intros (H1 & H2 & H3 & H4 & H5 & H6 & H7 & H8) Ha Hi N1 N2 N3.
  replace s with (str_or_nil (attribute_as_str a)) in Hi by now rewrite Ha. clear Ha.
  destruct a; vm_compute in Hi; try discriminate Hi; try (now elim N1); try (now elim N2); injection Hi as <- <-;
    unfold parse_value;
    match goal with |- context [aid_eqb ?x ?y] => let b := eval vm_compute in (aid_eqb x y) in change (aid_eqb x y) with b end; cbv iota;
    match goal with |- context [strip (lit ?x)] => change (strip (lit x)) with (lit x) end; cbn [attribute_outcome];
    repeat match goal with |- context [eqs (lit ?x) ?y] => let b := eval vm_compute in (eqs (lit x) y) in change (eqs (lit x) y) with b end;
    cbv iota; unfold parse_number; rewrite ?H1, ?H2, ?H3, ?H4, ?H5, ?H6, ?H7, ?H8; try reflexivity.
  destruct e; try reflexivity; now elim (N3 eq_refl).
Qed.

(* no document has the two other defaults *)
Lemma default_unread a v : a = A_StrokeMiterlimit \/ a = A_GlyphOrientationHorizontal -> default_value a = Some v ->
  forall e, ~ In (kind_of v) (kinds e a).
Proof.
  intros Ha Hv e H. destruct Ha as [-> | ->]; injection Hv as <-; destruct e; vm_compute in H; repeat destruct H as [H|H]; try discriminate H; easy.
Qed.
Lemma default_absent a v : a = A_StrokeMiterlimit \/ a = A_GlyphOrientationHorizontal -> default_value a = Some v ->
  forall P top D t n e, parse_svg P (Some top) = Ok (POk D) -> document_tree D t -> In n (preorder t) ->
  tag_name D n = QId e -> ~ In (mkAttr (QId a) v) (attributes D n).
Proof.
  intros Ha Hv P top D t n e Hp Ht Hn He Hi. apply (default_unread a v Ha Hv e).
  exact (values_kinds P top D t n e a v Hp Ht Hn He Hi).
Qed.

(* ---- tests *)
Definition tests : list ((avalue -> bool) * kind) :=
  [ (is_none, KNone); (is_inherit, KInherit); (is_current_color, KCurrentColor); (is_aspect_ratio, KRatio); (is_color, KColor);
    (is_length, KLength); (is_length_list, KLengthList); (is_angle, KAngle); (is_link, KLink); (is_func_link, KFuncLink);
    (is_paint, KPaint); (is_number, KNumber); (is_number_list, KNumberList); (is_path, KPath); (is_points, KPoints);
    (is_string, KString); (is_transform, KTransform); (is_viewbox, KViewBox) ].
Lemma test_kind f k : In (f, k) tests -> forall v, f v = true <-> kind_of v = k.
Proof.
  intros H v. cbn in H. repeat (destruct H as [[= <- <-]|H]; [destruct v; cbn; split; intros E; first [reflexivity|discriminate E]|]).
  destruct H.
Qed.
Lemma test_one v : exists f k pre post, tests = pre ++ (f, k) :: post /\ f v = true /\
  forall g l, In (g, l) (pre ++ post) -> g v = false.
Proof.
  assert (H : existsb (fun i => match nth_error tests i with
      | Some (f, _) => f v && forallb (fun x => negb (fst x v)) (firstn i tests ++ skipn (S i) tests)
      | None => false end) (seq 0 18) = true) by (destruct v; vm_compute; reflexivity).
  apply existsb_exists in H. destruct H as (i & _ & H). destruct (nth_error tests i) as [(f, k)|] eqn:E; [|discriminate H].
  apply andb_prop in H. destruct H as (Hf & H). rewrite forallb_forall in H.
  exists f, k, (firstn i tests), (skipn (S i) tests). split.
  - rewrite <- (firstn_skipn i tests) at 1. f_equal. clear -E. revert E. generalize tests. induction i as [|i IH]; intros [|x l] E; try discriminate E.
    + now injection E as ->.
    + exact (IH l E).
  - split; [exact Hf|]. intros g l Hg. specialize (H _ Hg). cbn in H. now destruct (g v).
Qed.
Lemma container_target v : is_link_container v = true <-> exists n, link_target v = Some n.
Proof. destruct v; cbn; split; intros H; try discriminate H; try easy; try (now eexists); now destruct H. Qed.
Lemma container_which v : is_link_container v = is_link v || is_func_link v || is_paint v.
Proof. now destruct v. Qed.

Lemma attribute_tests a id : (attribute_id a = Some id <-> a_name a = QId id) /\ (attribute_has_id a id = true <-> a_name a = QId id) /\
  (attribute_is_svg a = true <-> exists x, a_name a = QId x).
Proof.
  destruct a as [[x|s] v]; cbn; unfold attribute_id, attribute_has_id, attribute_is_svg; cbn.
  - split; [split; intros [= ->]; reflexivity|]. split.
    + rewrite aid_eqb_eq. split; [intros ->; reflexivity|now intros [= ->]].
    + split; [intros _; now exists x|easy].
  - split; [easy|]. split; [easy|]. split; [easy|]. now intros (x & H).
Qed.
Lemma attribute_default_iff id a : attribute_default id = Some a <-> a_name a = QId id /\ default_value id = Some (a_value a).
Proof.
  unfold attribute_default. destruct (default_value id) as [v|]; [|split; [easy|now intros (_ & H)]].
  split; [intros [= <-]; easy|]. destruct a as [n w]. cbn. intros (-> & [= ->]). reflexivity.
Qed.

(* ---- integers as doubles *)
Lemma digits_shift d : forall p, digits2_pos (shift_pos d p) = (digits2_pos p + d)%positive.
Proof.
  intros p. unfold shift_pos. induction d as [|d IH] using Pos.peano_ind.
  - cbn. lia.
  - rewrite Pos.iter_succ. cbn [digits2_pos]. rewrite IH. lia.
Qed.
Lemma shift_value d p : Z.pos (shift_pos d p) = (Z.pos p * 2 ^ Z.pos d)%Z.
Proof.
  unfold shift_pos. induction d as [|d IH] using Pos.peano_ind; [cbn; lia|].
  rewrite Pos.iter_succ, Pos2Z.inj_succ, Z.pow_succ_r by lia. rewrite Pos2Z.inj_xO, IH. lia.
Qed.
Lemma digits_bound p : (2 ^ (Z.pos (digits2_pos p) - 1) <= Z.pos p)%Z.
Proof.
  induction p as [p IH|p IH|]; cbn [digits2_pos]; [| |cbn; lia].
  - rewrite Pos2Z.inj_succ. replace (Z.succ (Z.pos (digits2_pos p)) - 1)%Z with (Z.succ (Z.pos (digits2_pos p) - 1)) by lia.
    rewrite Z.pow_succ_r by lia. lia.
  - rewrite Pos2Z.inj_succ. replace (Z.succ (Z.pos (digits2_pos p)) - 1)%Z with (Z.succ (Z.pos (digits2_pos p) - 1)) by lia.
    rewrite Z.pow_succ_r by lia. lia.
Qed.
Lemma digits_small p : (Z.pos p <= 2 ^ 32)%Z -> (Z.pos (digits2_pos p) <= 33)%Z.
Proof.
  intros H. pose proof (digits_bound p) as B. destruct (Z.le_gt_cases (Z.pos (digits2_pos p)) 33) as [L|L]; [exact L|].
  assert (G : (2 ^ 33 <= 2 ^ (Z.pos (digits2_pos p) - 1))%Z) by (apply Z.pow_le_mono_r; lia).
  assert (E : (2 ^ 33 = 2 * 2 ^ 32)%Z) by reflexivity. assert (0 < 2 ^ 32)%Z by reflexivity. lia.
Qed.

Lemma round_exact sx m e : Z.pos (digits2_pos m) = 53%Z -> (-1074 <= e <= 0)%Z ->
  binary_round_aux 53 1024 sx (Z.pos m) e loc_Exact = S754_finite sx m e.
Proof.
  intros Hd He. unfold binary_round_aux.
  assert (E : shr_fexp 53 1024 (Z.pos m) e loc_Exact = (Build_shr_record (Z.pos m) false false, e)).
  { unfold shr_fexp. cbn [Zdigits2 shr_record_of_loc]. rewrite Hd.
    replace (fexp 53 1024 (53 + e) - e)%Z with 0%Z; [reflexivity|].
    unfold fexp, emin. lia. }
  rewrite E. cbn [shr_m loc_of_shr_record round_nearest_even]. rewrite E. cbn [shr_m].
  replace (e <=? 1024 - 53)%Z with true by (symmetry; apply Z.leb_le; lia). reflexivity.
Qed.

Lemma round_int sx p : (Z.pos p <= 2 ^ 32)%Z -> exists m e, binary_round 53 1024 sx p 0 = S754_finite sx m e /\
  (e <= 0 /\ Z.pos p * 2 ^ (- e) = Z.pos m)%Z.
Proof.
  intros H. pose proof (digits_small p H) as Hd. unfold binary_round, shl_align.
  assert (E : (fexp 53 1024 (Z.pos (digits2_pos p) + 0) - 0 = Z.neg (53 - digits2_pos p))%Z).
  { unfold fexp, emin. lia. }
  assert (E2 : fexp 53 1024 (Z.pos (digits2_pos p) + 0) = Z.neg (53 - digits2_pos p)) by lia.
  rewrite E, E2. exists (shift_pos (53 - digits2_pos p) p), (Z.neg (53 - digits2_pos p)). split.
  - apply round_exact; [rewrite digits_shift|]; lia.
  - split; [lia|]. rewrite shift_value. f_equal.
Qed.

Theorem int_exact z : (- 2 ^ 31 <= z < 2 ^ 31)%Z -> is_int (f64_of_int z) z.
Proof.
  intros H. assert (P : (2 ^ 31 <= 2 ^ 32)%Z) by (apply Z.pow_le_mono_r; lia).
  unfold f64_of_int, binary_normalize. destruct z as [|p|p]; [split; reflexivity| |].
  - destruct (round_int false p) as (m & e & -> & He & Hv); [lia|]. cbn. split; [exact He|exact Hv].
  - destruct (round_int true p) as (m & e & -> & He & Hv); [lia|]. cbn [is_int]. split; [exact He|].
    change (Z.neg p) with (- Z.pos p)%Z. change (Z.neg m) with (- Z.pos m)%Z. lia.
Qed.
Theorem int_injective x y : (- 2 ^ 31 <= x < 2 ^ 31)%Z -> (- 2 ^ 31 <= y < 2 ^ 31)%Z -> f64_of_int x = f64_of_int y -> x = y.
Proof.
  intros Hx Hy E. pose proof (int_exact x Hx) as Ex. pose proof (int_exact y Hy) as Ey. rewrite E in Ex.
  unfold is_int in *. destruct (f64_of_int y) as [s|s| |s m e]; try easy.
  - destruct Ex as (_ & ->). now destruct Ey as (_ & ->).
  - destruct Ex as (He & Ex), Ey as (_ & Ey). assert (0 < 2 ^ (- e))%Z by (apply Z.pow_pos_nonneg; lia). nia.
Qed.
Theorem default_never a : a = A_StrokeMiterlimit \/ a = A_GlyphOrientationHorizontal ->
  exists v, default_value a = Some v /\
    forall P top D t n e, parse_svg P (Some top) = Ok (POk D) -> document_tree D t -> In n (preorder t) ->
      tag_name D n = QId e -> ~ In (mkAttr (QId a) v) (attributes D n).
Proof.
  intros H. assert (exists v, default_value a = Some v) as (v & E) by (destruct H as [-> | ->]; eexists; reflexivity).
  exists v. split; [exact E|]. exact (default_absent a v H E).
Qed.
Theorem attribute_facts a id : (attribute_id a = Some id <-> a_name a = QId id) /\ (attribute_has_id a id = true <-> a_name a = QId id) /\
  (attribute_is_svg a = true <-> exists x, a_name a = QId x) /\
  (attribute_default id = Some a <-> a_name a = QId id /\ default_value id = Some (a_value a)).
Proof.
  destruct (attribute_tests a id) as (H1 & H2 & H3). split; [exact H1|]. split; [exact H2|]. split; [exact H3|].
  exact (attribute_default_iff id a).
Qed.
Theorem integers_exact z : (- 2 ^ 31 <= z < 2 ^ 31)%Z ->
  exists x, from_i32 z = VNumber x /\ (forall u, from_i32_unit (z, u) = VLength (mkLength x u)) /\ is_int x z.
Proof. intros H. exists (f64_of_int z). split; [reflexivity|]. split; [reflexivity|]. exact (int_exact z H). Qed.
Theorem integers_differ x y : (- 2 ^ 31 <= x < 2 ^ 31)%Z -> (- 2 ^ 31 <= y < 2 ^ 31)%Z -> from_i32 x = from_i32 y -> x = y.
Proof. intros Hx Hy E. apply (int_injective x y Hx Hy). unfold from_i32 in E. congruence. Qed.
Theorem fallback_value f : kind_of (from_fallback f) = match f with FNone => KNone | FCurrentColor => KCurrentColor | FColor _ => KColor end /\
  (forall a iri n, instead (mkLink a iri (Some f) n) = from_fallback f).
Proof. destruct f; split; try reflexivity; intros [] iri n; reflexivity. Qed.

Theorem conversions_keep :
  keeps_all from_aspect_ratio KRatio /\ keeps_all from_color KColor /\ keeps_all from_length KLength /\
  keeps_all from_length_list KLengthList /\ keeps_all from_angle KAngle /\ keeps_all from_f64 KNumber /\
  keeps_all from_number_list KNumberList /\ keeps_all from_path KPath /\ keeps_all from_points KPoints /\
  keeps_all from_string KString /\ keeps_all from_transform KTransform /\ keeps_all from_viewbox KViewBox /\
  keeps_all from_f64_unit KLength /\
  (forall l, from_f64_unit (len_num l, len_unit l) = from_length l) /\
  (forall f g, from_fallback f = from_fallback g -> f = g).
Proof.
  repeat match goal with |- _ /\ _ => split end;
    try (intros [] [] H; cbn in H; congruence); try (intros []; reflexivity);
    try (split; [reflexivity|intros x y [= H]; exact H]).
  split; [reflexivity|]. intros [x u] [y v] [= -> ->]. reflexivity.
Qed.

Theorem attr_test_kind f k : In (f, k)
    [ (attr_is is_none, KNone); (attr_is is_inherit, KInherit); (attr_is is_current_color, KCurrentColor); (attr_is is_aspect_ratio, KRatio);
      (attr_is is_color, KColor); (attr_is is_length, KLength); (attr_is is_length_list, KLengthList);
      (attr_is is_link, KLink); (attr_is is_func_link, KFuncLink); (attr_is is_paint, KPaint); (attr_is is_number, KNumber);
      (attr_is is_number_list, KNumberList); (attr_is is_path, KPath); (attr_is is_points, KPoints); (attr_is is_string, KString);
      (attr_is is_transform, KTransform); (attr_is is_viewbox, KViewBox) ] ->
  forall a, f a = true <-> kind_of (a_value a) = k.
Proof.
  intros H a. cbn [In] in H.
  repeat (destruct H as [H|H]; [injection H as <- <-; unfold attr_is; apply test_kind; cbn [In]; repeat (first [left; reflexivity | right])|]). easy.
Qed.
