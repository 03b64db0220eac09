(* The parser builds the SVG part of the XML tree. *)
From Coq Require Import String List Bool PeanoNat NArith Lia.
From Verif Require Import Base Ids Links Tree Iter ForestSpec TreeSpec Data Attrs Slab NodeApi AttrSpec Doc History DocSpec
  ListFacts TreeProofs ForestFacts IterSpec IterProofs AttrFacts LinkProofs SlabProofs PruneFacts RemoveProofs InvProofs
  HistoryProofs DrainProofs TreeApi ApiProofs DocApi TidyProofs RootProofs Names NamesProofs Types Text TextSpec Loops
  TextProofs TextApi Parser ValueSpec ValueProofs ParserSpec.
Import ListNotations.
Open Scope nat_scope.
Open Scope list_scope.

(* ---- names *)
Lemma element_named_eq s : element_from_str s = Ok (element_named s).
Proof. unfold element_named. destruct (proj1 lookup_total s) as [(o & E) _]. now rewrite E. Qed.
Lemma attribute_named_eq s : attribute_from_str s = Ok (attribute_named s).
Proof. unfold attribute_named. destruct (proj1 lookup_total s) as [_ (o & E)]. now rewrite E. Qed.

Lemma svg_namespace_eq ns : known_ns ns = svg_namespace ns.
Proof. destruct ns as [s|]; [|easy]. cbn [known_ns svg_namespace existsb]. rewrite orb_false_r, orb_assoc. reflexivity. Qed.

(* ---- values *)
Lemma required_plain {A} (o : option A) f v : required o f = OValue v -> (forall a, link_target (f a) = None) ->
  link_target v = None.
Proof. destruct o; cbn; [|easy]. intros [= <-] H. apply H. Qed.
Lemma paint_plain o v : paint_outcome o = OValue v -> link_target v = None.
Proof. destruct o as [[]|]; cbn; intros H; try easy; now injection H as <-. Qed.
Lemma attribute_plain P e a s v : attribute_outcome P e a s = OValue v -> link_target v = None.
Proof.
  unfold attribute_outcome. intros H.
  destruct a; repeat match type of H with
    | (if ?b then _ else _) = _ => destruct b
    | match ?x with Some _ => _ | None => _ end = _ => destruct x
    | match len_unit ?x with _ => _ end = _ => destruct (len_unit x)
    | match e with _ => _ end = _ => destruct e
    end; try discriminate H; try (injection H as <-; reflexivity);
    try (apply paint_plain in H; exact H); try (apply required_plain in H; [exact H|reflexivity]).
Qed.
Lemma meaning_plain P e d v : meaning P e d = OValue v -> link_target v = None.
Proof.
  unfold meaning. rewrite read_value_eq. unfold kept, parse_value. destruct (attribute_outcome P e (fst d) _) eqn:E; try easy.
  destruct (dropped P v0); [easy|]. intros [= <-]. now apply attribute_plain in E.
Qed.

(* ---- style sheets *)
Lemma sheet_text_eq x : flat_map sheet_text (xml_nodes x) = css_texts x.
Proof.
  revert x. fix IH 1. intros [ns local attrs kids|s|s|]; [|reflexivity..]. cbn [xml_nodes flat_map css_texts].
  assert (E : flat_map sheet_text (flat_map xml_nodes kids) = flat_map css_texts kids).
  { induction kids as [|k kids IHk]; [reflexivity|]. cbn [flat_map]. rewrite flat_map_app, IHk, IH. reflexivity. }
  clear IH.
  rewrite E. f_equal. unfold sheet_text, style_text. destruct kids as [|[ns' l' a' k'|s|s|] kids];
    destruct (plain_attribute (lit "type") attrs) as [ty|]; destruct (str_eqb local (lit "style")); cbn [andb existsb orb ostr_eqb]; try easy.
  all: try (destruct (str_eqb ty (lit "text/css")); reflexivity).
Qed.
Lemma sheet_texts_eq top : sheet_texts top = flat_map css_texts top.
Proof.
  unfold sheet_texts. induction top as [|x top IH]; [easy|]. cbn [flat_map]. now rewrite flat_map_app, IH, sheet_text_eq.
Qed.
Lemma svg_of_rules P top : svg_parts P (resolve_css P top) top None [] 0 top = svg_of P top.
Proof. unfold svg_of, resolve_css. now rewrite sheet_texts_eq. Qed.

(* ---- the attributes of one element *)
(* No links yet. *)
Definition unlinked_dom (D : dom) : Prop := forall n a, In a (attributes D n) -> link_target (a_value a) = None.

Lemma unlinked_users D : LInv D -> unlinked_dom D -> forall n, linked_nodes D n = [].
Proof.
  intros I H n. destruct (linked_nodes D n) as [|u l] eqn:E; [easy|]. exfalso.
  pose proof (li_sym D I u n) as S. rewrite E in S.
  assert (Z : count_links n (attributes D u) = 0) by (apply count_links_zero; intros a Ha; rewrite (H u a Ha); easy).
  rewrite Z in S. unfold cnt in S. cbn in S. destruct (Nat.eq_dec u u); [discriminate S|easy].
Qed.

Lemma data_ext (d d' : ndata) : d_key d = d_key d' -> d_type d = d_type d' -> d_tag d = d_tag d' -> d_id d = d_id d' ->
  d_attrs d = d_attrs d' -> d_linked d = d_linked d' -> d_text d = d_text d' -> d = d'.
Proof. destruct d, d'. cbn. congruence. Qed.

Definition assign (P : values) (e : eid) (l : list attr) (d : aid * str) : list attr :=
  match meaning P e d with
  | OValue v => others (QId (fst d)) l ++ [mkAttr (QId (fst d)) v]
  | _ => l
  end.

(* The state while the element [n] gets its attributes [l] and its id [i]; [D0] is the state right
   after its creation. *)
Record elem_state (D0 : dom) (F : forest) (n : nid) (e : eid) (D : dom) (l : list attr) (i : str) : Prop := {
  es_inv   : InvF D F;
  es_plain : unlinked_dom D;
  es_lk    : lk D = lk D0;
  es_fresh : fresh D = fresh D0;
  es_root  : droot D = droot D0;
  es_other : forall m, m <> n -> dt D m = dt D0 m;
  es_type  : node_type D n = NElement;
  es_tag   : tag_name D n = QId e;
  es_attrs : attributes D n = l;
  es_id    : id_of D n = i;
  es_key   : storage_key D n <> None;
  es_calls : calls orderly D0 D;
  es_text  : text_of D n = []
}.

Section Element.
Context (P : values) (D0 : dom) (F : forest) (n : nid) (e : eid) (Hn : n < fresh D0).
Local Notation ST := (elem_state D0 F n e).

Lemma decl_step a v D l i ls : ST D l i -> exists D',
  parse_svg_attribute_value P a v n (D, ls) = Ok (D', ls ++ references P e n [(a, v)]) /\ ST D' (assign P e l (a, v)) i.
Proof.
  intros S. unfold parse_svg_attribute_value. cbn [fst snd].
  unfold tag_id. rewrite (es_tag _ _ _ _ _ _ _ S). cbn [unwrap bind].
  unfold assign, references. cbn [flat_map fst snd]. rewrite app_nil_r.
  pose proof (meaning_plain P e (a, v)) as Hm. unfold meaning in *. cbn [fst snd] in *. rewrite read_value_eq in *. unfold kept in *.
  destruct (parse_value P e a v) as [w| | |iri fb].
  2,3: (exists D; rewrite app_nil_r; easy).
  2: now exists D.
  destruct (dropped P w); [exists D; rewrite app_nil_r; easy|]. specialize (Hm w eq_refl).
  assert (He : is_element D n = true) by (unfold is_element; now rewrite (es_type _ _ _ _ _ _ _ S)).
  pose proof (es_inv _ _ _ _ _ _ _ S) as I. pose proof (iv_link D F I) as LI.
  pose proof (set_attribute_checked_spec n (mkAttr (QId a) w) D LI He) as Hs.
  unfold link_error in Hs. cbn [a_value] in Hs. rewrite Hm in Hs. destruct Hs as (D' & E & Hf & Ha & Hl & HL).
  assert (Es : set_attribute n (mkAttr (QId a) w) D = Ok D') by (unfold set_attribute; now rewrite E).
  rewrite Es. cbn [bind]. exists D'. rewrite app_nil_r. split; [easy|].
  destruct (set_attribute_inv D F n _ D' I Es) as (I' & _).
  assert (Hst : stored (mkAttr (QId a) w) = mkAttr (QId a) w) by (unfold stored; cbn; destruct w; easy).
  assert (Hpl : unlinked_dom D').
  { intros m x Hx. rewrite Ha in Hx. destruct (Nat.eqb m n); [|now apply (es_plain _ _ _ _ _ _ _ S m)].
    apply in_app_iff in Hx. destruct Hx as [Hx|[<-|[]]]; [|now rewrite Hst].
    apply in_drop_name in Hx. now apply (es_plain _ _ _ _ _ _ _ S m). }
  pose proof (unlinked_users D' HL Hpl) as Hu'. pose proof (unlinked_users D LI (es_plain _ _ _ _ _ _ _ S)) as Hu.
  destruct S, Hf. split; try assumption; try congruence.
  - intros m Hm'. rewrite <- (es_other0 m Hm'). apply data_ext.
    + exact (fr_key m).
    + exact (fr_type m).
    + exact (fr_tag m).
    + exact (fr_id m).
    + specialize (Ha m). destruct (Nat.eqb_spec m n); [easy|]. exact Ha.
    + exact (eq_trans (Hu' m) (eq_sym (Hu m))).
    + exact (fr_text m).
  - rewrite Ha, Nat.eqb_refl, Hst, es_attrs0. reflexivity.
  - apply (calls_step orderly D0 (OSetAttribute n (mkAttr (QId a) w)) D D'); [easy| |easy|easy| |exact Es].
    + split; [|exact Logic.I]. intros m. cbn [handles a_value]. rewrite Hm. intros [<-|[]]. unfold exists_node. now rewrite es_fresh0.
    + split.
      * intros m. cbn [handles a_value]. rewrite Hm. intros [<-|[]]. easy.
      * intros Ht. cbn [a_value] in Ht. congruence.
Qed.

Lemma id_step v D l i : ST D l i -> exists D', set_id n v D = Ok D' /\ ST D' l v.
Proof.
  intros S. assert (He : is_element D n = true) by (unfold is_element; now rewrite (es_type _ _ _ _ _ _ _ S)).
  assert (E : set_id n v D = Ok (modify n (set_id_field v) D)) by (unfold set_id; now rewrite He).
  exists (modify n (set_id_field v) D). split; [exact E|].
  pose proof (es_inv _ _ _ _ _ _ _ S) as I.
  assert (Hd : forall m, dt (modify n (set_id_field v) D) m = if Nat.eqb m n then set_id_field v (dt D n) else dt D m)
    by (intros m; cbn; apply upd_eq).
  assert (Ha : forall m, attributes (modify n (set_id_field v) D) m = attributes D m).
  { intros m. unfold attributes. rewrite Hd. destruct (Nat.eqb_spec m n) as [->|]; easy. }
  destruct S. split; try easy.
  - apply InvF_data; try easy.
    + now rewrite es_fresh0.
    + intros _. now apply (iv_tag D F I).
    + congruence.
  - intros m x. rewrite Ha. now apply es_plain0.
  - intros m Hm. rewrite Hd. destruct (Nat.eqb_spec m n); [easy|]. now apply es_other0.
  - unfold node_type in *. rewrite Hd, Nat.eqb_refl. easy.
  - unfold tag_name in *. rewrite Hd, Nat.eqb_refl. easy.
  - now rewrite Ha.
  - unfold id_of. rewrite Hd, Nat.eqb_refl. easy.
  - unfold storage_key in *. rewrite Hd, Nat.eqb_refl. easy.
  - apply (calls_step orderly D0 (OSetId n v) D); [easy| |easy|easy| |exact E].
    + split; [|exact Logic.I]. intros m [<-|[]]. unfold exists_node. now rewrite es_fresh0.
    + split; [|easy]. intros m [<-|[]]. easy.
  - unfold text_of in *. rewrite Hd, Nat.eqb_refl. easy.
Qed.

(* many declarations *)
Lemma assign_app l ds1 ds2 : fold_left (assign P e) (ds1 ++ ds2) l = fold_left (assign P e) ds2 (fold_left (assign P e) ds1 l).
Proof. apply fold_left_app. Qed.
Lemma references_app ds1 ds2 : references P e n (ds1 ++ ds2) = references P e n ds1 ++ references P e n ds2.
Proof. apply flat_map_app. Qed.

(* a loop whose body handles some declarations *)
Definition handles_decls {A} (body : A -> pstate -> res pstate) (f : A -> list (aid * str)) : Prop :=
  forall x D l i ls, ST D l i -> exists D', body x (D, ls) = Ok (D', ls ++ references P e n (f x)) /\
    ST D' (fold_left (assign P e) (f x) l) i.

Lemma for_each_decls {A} (body : A -> pstate -> res pstate) f : handles_decls body f ->
  handles_decls (fun xs => for_each body xs) (flat_map f).
Proof.
  intros H xs. induction xs as [|x xs IH]; intros D l i ls S; cbn [for_each flat_map].
  - exists D. rewrite app_nil_r. easy.
  - destruct (H x D l i ls S) as (D1 & E1 & S1). rewrite E1. cbn [bind].
    destruct (IH D1 _ i (ls ++ references P e n (f x)) S1) as (D2 & E2 & S2). exists D2. rewrite E2, references_app, <- app_assoc, assign_app. easy.
Qed.

Lemma skip_decls D l i ls : ST D l i -> exists D', Ok (D, ls) = Ok (D', ls ++ references P e n []) /\
  ST D' (fold_left (assign P e) [] l) i.
Proof. intros S. exists D. now rewrite app_nil_r. Qed.
Lemma one_decl a v D l i ls : ST D l i -> exists D',
  parse_svg_attribute_value P a v n (D, ls) = Ok (D', ls ++ references P e n [(a, v)]) /\
  ST D' (fold_left (assign P e) [(a, v)] l) i.
Proof. apply decl_step. Qed.

Lemma css_decls : handles_decls (fun d s => parse_css_attribute_value P (fst d) (snd d) n s) sheet_decl.
Proof.
  intros (name & v) D l i ls S. unfold parse_css_attribute_value, sheet_decl, css_property. cbn [fst snd].
  rewrite attribute_named_eq. cbn [bind]. destruct (attribute_named name) as [a|]; [|now apply skip_decls].
  rewrite <- negb_orb. destruct (is_presentation a || aid_eqb a A_Transform) eqn:Ep; cbn [negb]; [|now apply skip_decls].
  destruct (aid_eqb a A_Marker) eqn:Em.
  - apply aid_eqb_eq in Em. subst a.
    destruct (decl_step A_MarkerStart v D l i ls S) as (D1 & E1 & S1). rewrite E1. cbn [bind].
    destruct (decl_step A_MarkerMid v D1 _ i (ls ++ references P e n [(A_MarkerStart, v)]) S1) as (D2 & E2 & S2).
    rewrite E2. cbn [bind].
    destruct (decl_step A_MarkerEnd v D2 _ i ((ls ++ references P e n [(A_MarkerStart, v)]) ++ references P e n [(A_MarkerMid, v)]) S2) as (D3 & E3 & S3).
    exists D3. split; [|exact S3]. rewrite E3. do 2 f_equal. rewrite <- !app_assoc. f_equal.
    now rewrite <- !references_app.
  - assert (Hm : match a with A_Marker => [(A_MarkerStart, v); (A_MarkerMid, v); (A_MarkerEnd, v)] | _ => [(a, v)] end = [(a, v)])
      by (destruct a; try reflexivity; discriminate Em).
    rewrite Hm. now apply one_decl.
Qed.

Lemma style_one : handles_decls (fun d s => o <- attribute_from_str (fst d) ;;
    match o with
    | Some id => if is_presentation id || aid_eqb id A_Transform
                 then parse_svg_attribute_value P id (snd d) n s else Ok s
    | None => Ok s
    end) style_decl.
Proof.
  intros (name & v) D l i ls S. unfold style_decl, css_property. cbn [fst snd].
  rewrite attribute_named_eq. cbn [bind]. destruct (attribute_named name) as [a|]; [|now apply skip_decls].
  destruct (is_presentation a || aid_eqb a A_Transform); [now apply one_decl|now apply skip_decls].
Qed.

Lemma rules_decls top path : handles_decls (fun rs s => parse_rules P rs top path n s) (fun rs => sheet_decls rs top path).
Proof.
  apply (for_each_decls (fun r s => if r_matches r top path
    then for_each (fun d s => parse_css_attribute_value P (fst d) (snd d) n s) (r_declarations r) s else Ok s)
    (fun r => if r_matches r top path then flat_map sheet_decl (r_declarations r) else [])).
  intros r D l i ls S. destruct (r_matches r top path); [|now apply skip_decls].
  exact (for_each_decls _ _ css_decls (r_declarations r) D l i ls S).
Qed.

Lemma style_attr_decls attrs : handles_decls (fun (_ : unit) s => match plain_attribute (lit "style") attrs with
       | Some v => parse_style_attribute P v n s
       | None => Ok s end) (fun _ => style_decls P attrs).
Proof.
  intros [] D l i ls S. unfold style_decls. destruct (plain_attribute _ attrs) as [v|]; [|now apply skip_decls].
  exact (for_each_decls _ _ style_one (p_declarations P v) D l i ls S).
Qed.

(* XML attributes, with the id *)
Definition next_id (i : str) (ds : list (aid * str)) : str :=
  last (map snd (filter (fun d => aid_eqb (fst d) A_Id) ds)) i.
Definition common (ds : list (aid * str)) : list (aid * str) := filter (fun d => negb (special (fst d))) ds.

Lemma last_app_d {A} (l1 l2 : list A) d : last (l1 ++ l2) d = last l2 (last l1 d).
Proof.
  revert d. induction l1 as [|x l1 IH]; intros d; [easy|]. destruct l1 as [|y l1].
  - cbn [app]. destruct l2 as [|z l2]; [easy|]. clear IH. cbn [last]. revert z. induction l2 as [|w l2 IH2]; intros z; [easy|].
    apply (IH2 w).
  - change (last ((x :: y :: l1) ++ l2) d) with (last ((y :: l1) ++ l2) d). rewrite IH. reflexivity.
Qed.

Lemma attributes_decls attrs : forall D l i ls, ST D l i -> exists D',
  parse_attributes P attrs n (D, ls) = Ok (D', ls ++ references P e n (common (svg_attributes attrs))) /\
  ST D' (fold_left (assign P e) (common (svg_attributes attrs)) l) (next_id i (svg_attributes attrs)).
Proof.
  unfold parse_attributes. induction attrs as [|x attrs IH]; intros D l i ls S.
  { exists D. split; [cbn [for_each]; now rewrite app_nil_r|exact S]. }
  cbn [for_each].
  set (first := if svg_namespace (x_ns x) then match attribute_named (x_name x) with Some a => [(a, x_value x)] | None => [] end else []).
  assert (Esp : svg_attributes (x :: attrs) = first ++ svg_attributes attrs) by reflexivity.
  rewrite Esp. unfold common, next_id. rewrite !filter_app, map_app, last_app_d, references_app, assign_app.
  set (step := if known_ns (x_ns x) then _ else _).
  assert (H1 : exists D1, step = Ok (D1, ls ++ references P e n (common first)) /\
     ST D1 (fold_left (assign P e) (common first) l) (next_id i first)).
  { unfold step, first. rewrite svg_namespace_eq. destruct (svg_namespace (x_ns x)).
    2:{ exists D. split; [cbn; now rewrite app_nil_r|exact S]. }
    rewrite attribute_named_eq. cbn [bind]. destruct (attribute_named (x_name x)) as [a|].
    2:{ exists D. split; [cbn; now rewrite app_nil_r|exact S]. }
    assert (Hgen : special a = false -> exists D1, parse_svg_attribute_value P a (x_value x) n (D, ls) =
       Ok (D1, ls ++ references P e n (common [(a, x_value x)])) /\
       ST D1 (fold_left (assign P e) (common [(a, x_value x)]) l) (next_id i [(a, x_value x)])).
    { intros Ha. unfold common, next_id. cbn [filter fst]. rewrite Ha. cbn [negb].
      replace (aid_eqb a A_Id) with false.
      - apply one_decl. exact S.
      - symmetry. destruct (aid_eqb a A_Id) eqn:Ea; [|easy]. apply aid_eqb_eq in Ea. subst a. discriminate Ha. }
    assert (Hc : a = A_Id \/ (a = A_Style \/ a = A_Class) \/
      special a = false /\ parse_svg_attribute P a (x_value x) n (D, ls) = parse_svg_attribute_value P a (x_value x) n (D, ls))
      by (destruct a; first [now left|right; left; now left|right; left; now right|right; right; split; reflexivity]).
    destruct Hc as [->|[Ha|(Ha & ->)]].
    - destruct (id_step (x_value x) D l i S) as (D1 & E1 & S1). exists D1.
      cbn [parse_svg_attribute fst snd]. rewrite E1. cbn [bind]. split; [cbn; now rewrite app_nil_r|exact S1].
    - exists D. destruct Ha as [->| ->]; (split; [cbn; now rewrite app_nil_r|exact S]).
    - now apply Hgen. }
  destruct H1 as (D1 & E1 & S1). rewrite E1. cbn [bind].
  destruct (IH D1 _ _ (ls ++ references P e n (common first)) S1) as (D2 & E2 & S2). exists D2. split; [|exact S2].
  rewrite E2, <- app_assoc. reflexivity.
Qed.

(* the whole element *)
Lemma element_decls rules top path attrs D ls : ST D [] [] -> exists D',
  (s <- parse_attributes P attrs n (D, ls) ;;
   s <- parse_rules P rules top path n s ;;
   match plain_attribute (lit "style") attrs with
   | Some v => parse_style_attribute P v n s
   | None => Ok s end) = Ok (D', ls ++ references P e n (declarations P rules top path attrs)) /\
  ST D' (fold_left (assign P e) (declarations P rules top path attrs) []) (xml_id attrs).
Proof.
  intros S. unfold declarations, attribute_decls. rewrite !references_app, !assign_app.
  destruct (attributes_decls attrs D [] [] ls S) as (D1 & E1 & S1). rewrite E1. cbn [bind].
  destruct (rules_decls top path rules D1 _ _ (ls ++ references P e n (common (svg_attributes attrs))) S1) as (D2 & E2 & S2).
  rewrite E2. cbn [bind].
  destruct (style_attr_decls attrs tt D2 _ _ ((ls ++ references P e n (common (svg_attributes attrs))) ++
     references P e n (sheet_decls rules top path)) S2) as (D3 & E3 & S3).
  exists D3. split; [|exact S3]. rewrite E3, <- !app_assoc. reflexivity.
Qed.
End Element.

(* what the attributes are *)
Lemma in_others a name l : In a (others name l) <-> In a l /\ a_name a <> name.
Proof. apply in_drop_name. Qed.

Lemma plain_value_snoc P e a ds d : plain_value P e a (ds ++ [d]) =
  if aid_eqb (fst d) a then match meaning P e d with OValue v => Some v | _ => plain_value P e a ds end
  else plain_value P e a ds.
Proof.
  unfold plain_value, plain_values. rewrite flat_map_app. cbn [flat_map]. rewrite app_nil_r, rev_app_distr.
  destruct (aid_eqb (fst d) a); [|easy]. now destruct (meaning P e d).
Qed.

Lemma assigned P e ds q v : In (mkAttr q v) (fold_left (assign P e) ds []) <->
  exists a, q = QId a /\ plain_value P e a ds = Some v.
Proof.
  revert q v. induction ds as [|d ds IH] using rev_ind; intros q v.
  - cbn. split; [easy|]. now intros (a & _ & H).
  - rewrite fold_left_app. cbn [fold_left]. unfold assign at 1.
    destruct (meaning P e d) as [w| | |iri fb] eqn:Em.
    2,3,4: rewrite IH; split; intros (a & Hq & Hv); exists a; (split; [exact Hq|]);
      rewrite plain_value_snoc, Em in *; destruct (aid_eqb (fst d) a); exact Hv.
    rewrite in_app_iff, in_others, IH. cbn [In a_name]. split.
    + intros [((a & -> & Hv) & Hne)|[[= <- <-]|[]]].
      * exists a. split; [easy|]. rewrite plain_value_snoc. destruct (aid_eqb (fst d) a) eqn:Ea; [|exact Hv].
        apply aid_eqb_eq in Ea. congruence.
      * exists (fst d). split; [easy|]. rewrite plain_value_snoc, Em.
        replace (aid_eqb (fst d) (fst d)) with true; [easy|]. symmetry. now apply aid_eqb_eq.
    + intros (a & -> & Hv). rewrite plain_value_snoc, Em in Hv. destruct (aid_eqb (fst d) a) eqn:Ea.
      * apply aid_eqb_eq in Ea. subst a. right. left. congruence.
      * left. split; [now exists a|]. intros [= E]. subst a.
        assert (X : aid_eqb (fst d) (fst d) = true) by now apply aid_eqb_eq. congruence.
Qed.
