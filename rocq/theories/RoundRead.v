(* Reading the written output: the SVG part of the XML tree mirrors the document. *)
From Coq Require Import String List Bool PeanoNat NArith Permutation Sorted Lia.
From Verif Require Import Base Ids Names NamesProofs Links Tree Iter ForestSpec TreeSpec ListFacts TreeProofs ForestFacts
  IterSpec IterProofs Data Attrs AttrFacts AttrSpec Slab NodeApi Doc History LinkProofs InvProofs HistoryProofs TreeApi ApiProofs
  Text TextSpec Writer WriterSpec WriterProofs WriterApi Parser ParserSpec ParserTree ParserLinks RoundSpec.
Import ListNotations.
Open Scope nat_scope.
Open Scope list_scope.

Lemma Forall2_in_r {A B} (R : A -> B -> Prop) l l' b : Forall2 R l l' -> In b l' -> exists a, In a l /\ R a b.
Proof.
  induction 1 as [|x y l l' H HF IH]; intros Hb; [easy|]. destruct Hb as [<-|Hb]; [exists x; split; [now left|easy]|].
  destruct (IH Hb) as (a & Ha & Hr). exists a. split; [now right|easy].
Qed.

(* ---- names *)
Lemma element_colon : forallb (fun e => match element_as_str e with
  | Ok s => match split_name s with None => negb (str_eqb s (lit "xmlns")) | _ => false end | _ => false end) all_eids = true.
Proof. vm_compute. reflexivity. Qed.
Lemma attribute_colon : forallb (fun a => match attribute_as_str a with
  | Ok s => match split_name s with None => true | _ => false end | _ => false end) all_aids = true.
Proof. vm_compute. reflexivity. Qed.

Lemma element_split e s : element_as_str e = Ok s -> split_name s = None.
Proof.
  intros H. pose proof element_colon as C. rewrite forallb_forall in C. specialize (C e (all_eids_complete e)).
  rewrite H in C. now destruct (split_name s).
Qed.
Lemma attribute_split a s : attribute_as_str a = Ok s -> split_name s = None.
Proof.
  intros H. pose proof attribute_colon as C. rewrite forallb_forall in C. specialize (C a (all_aids_complete a)).
  rewrite H in C. now destruct (split_name s).
Qed.
Lemma element_named_str e s : element_as_str e = Ok s -> element_named s = Some e.
Proof. intros H. unfold element_named. now rewrite (proj1 (proj1 element_bijection e s) H). Qed.
Lemma attribute_named_str a s : attribute_as_str a = Ok s -> attribute_named s = Some a.
Proof. intros H. unfold attribute_named. now rewrite (proj1 (proj1 attribute_bijection a s) H). Qed.

(* ---- values *)
Definition safe_char (c : chr) : bool := attr_char c && negb (c =? 38)%N.
Lemma decode_safe s : forallb safe_char s = true -> decode DPlain s = Some s.
Proof.
  induction s as [|c s IH]; [easy|]. cbn [forallb]. intros H. apply andb_true_iff in H. destruct H as (H & H').
  apply andb_true_iff in H. destruct H as (_ & H). cbn [decode]. apply negb_true_iff in H. rewrite H, (IH H'). reflexivity.
Qed.
Lemma safe_attr s : forallb safe_char s = true -> forallb attr_char s = true.
Proof.
  intros H. apply forallb_forall. intros c Hc. rewrite forallb_forall in H. specialize (H c Hc).
  now apply andb_true_iff in H.
Qed.
Lemma value_safe s : forallb safe_char s = true -> value_of s s.
Proof. intros H. split; [now apply safe_attr|now apply decode_safe]. Qed.
Lemma value_unique s v : forallb safe_char s = true -> value_of s v -> v = s.
Proof. intros H (_ & E). rewrite (decode_safe s H) in E. congruence. Qed.

Lemma hex_digit_char d : (d < 16)%N -> attr_char (hex_digit d) = true.
Proof.
  intros H. assert (C : forallb (fun d => attr_char (hex_digit (N.of_nat d))) (seq 0 16) = true) by (vm_compute; reflexivity).
  rewrite forallb_forall in C. specialize (C (N.to_nat d)). rewrite N2Nat.id in C. apply C. apply in_seq. lia.
Qed.
Lemma hex_loop_chars f : forall x acc, forallb attr_char acc = true -> forallb attr_char (hex_loop f x acc) = true.
Proof.
  induction f as [|f IH]; intros x acc H; cbn [hex_loop].
  - cbn [forallb]. rewrite H, hex_digit_char; [easy|]. apply N.mod_lt. lia.
  - destruct (x / 16 =? 0)%N; [|apply IH]; cbn [forallb]; rewrite H, hex_digit_char; try easy; apply N.mod_lt; lia.
Qed.
Lemma escaped_chars s : (forall t, s <> lit "&#" ++ t) -> forallb attr_char (write_escaped s) = true.
Proof.
  intros H. unfold write_escaped. destruct (starts_with (lit "&#") s) eqn:E.
  - exfalso. change (lit "&#") with [38; 35]%N in *. destruct s as [|a [|b s]]; cbn [starts_with] in E.
    + discriminate E.
    + now rewrite andb_false_r in E.
    + apply andb_true_iff in E. destruct E as (E1 & E2). apply andb_true_iff in E2. destruct E2 as (E2 & _).
      apply N.eqb_eq in E1, E2. subst a b. now apply (H s).
  - apply forallb_forall. intros c Hc. apply in_flat_map in Hc. destruct Hc as (d & _ & Hc).
    assert (G : forallb attr_char (lit "&#x" ++ hex d ++ lit ";") = true).
    { rewrite !forallb_app. replace (forallb attr_char (lit "&#x")) with true by reflexivity.
      replace (forallb attr_char (lit ";")) with true by reflexivity. cbn [andb]. rewrite andb_true_r.
      now apply hex_loop_chars. }
    rewrite forallb_forall in G. now apply G.
Qed.

(* ---- one attribute *)
Definition env_for (D : dom) (n : nid) (e : nsenv) : Prop :=
  e_default e = Some ns_svg /\ bound e (lit "xml") = Some ns_xml /\
  ((exists x, In x (attributes D n) /\ a_name x = QId A_Href) -> bound e (lit "xlink") = Some ns_xlink).

Lemma written_value W D x y : written W D x y -> value_ok W D x ->
  value_of (snd y) (value_text W D x) /\ forall v, value_of (snd y) v -> v = value_text W D x.
Proof.
  intros (_ & E) H. rewrite E. clear E. unfold value_text, value_ok in *.
  assert (G : forall v, forallb (fun c => attr_char c && negb (c =? 38)%N) (value_str W D v) = true ->
    value_of (value_str W D v) (value_str W D v) /\
    forall u, value_of (value_str W D v) u -> u = value_str W D v).
  { intros v Hv. split; [now apply value_safe|]. intros u. now apply value_unique. }
  assert (G2 : forall s, (forall t, s <> lit "&#" ++ t) -> value_of (write_escaped s) s /\
    forall u, value_of (write_escaped s) u -> u = s).
  { intros s Hs. pose proof (unicode_survives s Hs) as Hd. split; [split; [now apply escaped_chars|easy]|].
    intros u (_ & Eu). congruence. }
  destruct (a_name x) as [a|s]; [|now apply G]. destruct a; try now apply G. destruct (a_value x); try easy. now apply G2.
Qed.

Definition read_as (W : writers) (D : dom) (x : attr) (z : xattr) : Prop :=
  svg_namespace (x_ns z) = true /\ x_value z = value_text W D x /\
  exists a, a_name x = QId a /\ attribute_named (x_name z) = Some a.

Lemma written_declaration W D x y a : written W D x y -> a_name x = QId a -> a <> A_Xmlns -> is_declaration y = false.
Proof.
  intros (Hl & _) E Hx. unfold is_declaration. rewrite E in Hl. inversion Hl as [E1 E2|E1 E2|b s H1 H2 H3 E1 E2|]; subst.
  - replace (fst y) with (lit "xlink:href"). reflexivity.
  - replace (fst y) with (lit "xml:space"). reflexivity.
  - rewrite (attribute_split a (fst y) H3), orb_false_r. destruct (str_eqb (fst y) (lit "xmlns")) eqn:Ex; [|easy]. exfalso. apply Hx.
    apply str_eqb_eq in Ex. rewrite Ex in H3. apply (proj2 attribute_bijection a A_Xmlns (lit "xmlns")); [easy|].
    vm_compute. reflexivity.
Qed.

Lemma written_reads W D n e x y a : written W D x y -> a_name x = QId a -> In x (attributes D n) -> value_ok W D x ->
  env_for D n e -> (exists z, reads_attr e y z) /\ forall z, reads_attr e y z -> read_as W D x z.
Proof.
  intros Hw E Hin Hv (E1 & E2 & E3). destruct (written_value W D x y Hw Hv) as (V1 & V2). destruct Hw as (Hl & _).
  destruct y as [name raw]. cbn [fst snd] in *. rewrite E in Hl.
  inversion Hl as [Ea En|Ea En|b s H1 H2 H3 Ea En|]; subst.
  - assert (Hb : bound e (lit "xlink") = Some ns_xlink) by (apply E3; now exists x).
    split; [exists (mkXattr (Some ns_xlink) (lit "href") (value_text W D x)); now apply (ra_prefix e _ _ (lit "xlink"))|].
    intros z Hz. inversion Hz as [? ? v Hs Hval|? ? p l ns v Hs Hbd Hval]; subst; [discriminate Hs|].
    injection Hs as <- <-. change [120; 108; 105; 110; 107]%N with (lit "xlink") in Hbd. rewrite Hb in Hbd. injection Hbd as <-.
    split; [reflexivity|]. split; [now apply V2|]. exists A_Href. split; [easy|]. vm_compute. reflexivity.
  - split; [exists (mkXattr (Some ns_xml) (lit "space") (value_text W D x)); now apply (ra_prefix e _ _ (lit "xml"))|].
    intros z Hz. inversion Hz as [? ? v Hs Hval|? ? p l ns v Hs Hbd Hval]; subst; [discriminate Hs|].
    injection Hs as <- <-. change [120; 109; 108]%N with (lit "xml") in Hbd. rewrite E2 in Hbd. injection Hbd as <-.
    split; [reflexivity|]. split; [now apply V2|]. exists A_Space. split; [easy|]. vm_compute. reflexivity.
  - pose proof (attribute_split a name H3) as Hsp.
    split; [exists (mkXattr None name (value_text W D x)); now constructor|].
    intros z Hz. inversion Hz as [? ? v Hs Hval|? ? p l ns v Hs Hbd Hval]; subst; [|congruence].
    split; [reflexivity|]. split; [now apply V2|]. exists a. split; [easy|]. now apply attribute_named_str.
Qed.

(* ---- a start tag *)
Definition plain_attrs (W : writers) (D : dom) (n : nid) : Prop :=
  forall x, In x (attributes D n) -> exists a, a_name x = QId a /\ special a = false /\ a <> A_Xmlns /\ value_ok W D x.

Lemma ok_unicode W D x : value_ok W D x -> bad_unicode x = false.
Proof.
  unfold value_ok, bad_unicode. destruct (a_name x) as [a|]; [|easy]. destruct a; try easy. now destruct (a_value x).
Qed.

Lemma plain_start_tag W D F n l : plain_attrs W D n -> start_tag W D F n l ->
  exists ns svg out,
    l = ns ++ (if str_eqb (id_of D n) [] then [] else [(lit "id", id_of D n)]) ++ out /\ namespaces D F n ns /\
    Permutation svg (attributes D n) /\ Forall2 (written W D) svg out.
Proof.
  intros Hp (ns & svg & so & co & -> & Hns & Hperm & _ & H1 & H2).
  assert (E1 : filter (fun a => is_svg_attr a && negb (bad_unicode a)) (attributes D n) = attributes D n).
  { apply filter_all. intros x Hx. destruct (Hp x Hx) as (a & E & _ & _ & Hv). rewrite (ok_unicode W D x Hv).
    unfold is_svg_attr. now rewrite E. }
  assert (E2 : filter (fun a => negb (is_svg_attr a)) (attributes D n) = []).
  { apply filter_none. intros x Hx. destruct (Hp x Hx) as (a & E & _). unfold is_svg_attr. now rewrite E. }
  rewrite E1 in Hperm. rewrite E2 in H2. inversion H2; subst. exists ns, svg, so. now rewrite app_nil_r.
Qed.

Lemma plain_no_clash W D n x : plain_attrs W D n -> In x (attributes D n) -> no_clash x.
Proof.
  intros Hp Hx. destruct (Hp x Hx) as (a & E & Hs & Ha & _). unfold no_clash. rewrite E. split; [|easy]. now intros ->.
Qed.

Lemma fold_declare_none l : forall e, (forall x, In x l -> is_declaration x = false) -> fold_left declare l e = e.
Proof.
  induction l as [|x l IH]; intros e H; [easy|]. cbn [fold_left]. rewrite IH; [|intros y Hy; apply H; now right].
  specialize (H x (or_introl eq_refl)). unfold is_declaration in H. apply orb_false_iff in H. destruct H as (H1 & H2).
  unfold declare. rewrite H1. destruct (split_name (fst x)) as [[p q]|]; [|easy]. now rewrite H2.
Qed.

Lemma tag_env W D F n l e : plain_attrs W D n -> start_tag W D F n l ->
  exists ns, namespaces D F n ns /\ fold_left declare l e = fold_left declare ns e.
Proof.
  intros Hp Hs. destruct (plain_start_tag W D F n l Hp Hs) as (ns & svg & out & -> & Hns & Hperm & H1). exists ns.
  split; [easy|]. rewrite !fold_left_app. rewrite (fold_declare_none out).
  - apply fold_declare_none. intros x Hx. destruct (str_eqb (id_of D n) []); [easy|]. destruct Hx as [<-|[]]. reflexivity.
  - intros y Hy. destruct (Forall2_in_r _ _ _ y H1 Hy) as (x & Hx & Hw). apply (Permutation_in _ Hperm) in Hx.
    destruct (Hp x Hx) as (a & E & _ & Ha & _). now apply (written_declaration W D x y a).
Qed.

Definition decl_of (W : writers) (D : dom) (x : attr) (d : aid * str) : Prop :=
  a_name x = QId (fst d) /\ snd d = value_text W D x.

Lemma read_as_decl W D svg xs : Forall2 (read_as W D) svg xs -> Forall2 (decl_of W D) svg (svg_attributes xs).
Proof.
  induction 1 as [|x z svg xs (H1 & H2 & a & H3 & H4) H IH]; [constructor|]. unfold svg_attributes. cbn [flat_map].
  rewrite H1, H4. cbn [app]. constructor; [|exact IH]. now split.
Qed.

Lemma tag_reads W D F n l e : plain_attrs W D n -> start_tag W D F n l -> env_for D n e ->
  forallb safe_char (id_of D n) = true ->
  (exists xs, Forall2 (reads_attr e) (filter (fun x => negb (is_declaration x)) l) xs) /\
  forall xs, Forall2 (reads_attr e) (filter (fun x => negb (is_declaration x)) l) xs ->
    xml_id xs = id_of D n /\ plain_attribute (lit "style") xs = None /\
    exists svg, Permutation svg (attributes D n) /\ Forall2 (decl_of W D) svg (attribute_decls xs).
Proof.
  intros Hp Hs He Hid. destruct (plain_start_tag W D F n l Hp Hs) as (ns & svg & out & -> & Hns & Hperm & H1).
  assert (Hsvg : forall x, In x svg -> In x (attributes D n)) by (intros x; now apply Permutation_in).
  assert (Ens : filter (fun x => negb (is_declaration x)) ns = []).
  { inversion Hns; subst; reflexivity. }
  assert (Eo : filter (fun x => negb (is_declaration x)) out = out).
  { apply filter_all. intros y Hy. destruct (Forall2_in_r _ _ _ y H1 Hy) as (x & Hx & Hw).
    destruct (Hp x (Hsvg x Hx)) as (a & E & _ & Ha & _). now rewrite (written_declaration W D x y a). }
  rewrite !filter_app, Ens, Eo. cbn [app]. clear Hns Ens Eo Hs.
  assert (Hread : (exists xs, Forall2 (reads_attr e) out xs) /\
    forall xs, Forall2 (reads_attr e) out xs -> Forall2 (read_as W D) svg xs).
  { clear Hperm. induction H1 as [|x y svg out Hw H1 IH].
    - split; [exists []; constructor|]. intros xs H. inversion H. constructor.
    - destruct IH as (IH1 & IH2); [intros z Hz; apply Hsvg; now right|].
      destruct (Hp x (Hsvg x (or_introl eq_refl))) as (a & E & _ & Ha & Hv).
      destruct (written_reads W D n e x y a Hw E (Hsvg x (or_introl eq_refl)) Hv He) as (R1 & R2). split.
      + destruct R1 as (z & Hz). destruct IH1 as (xs & Hxs). exists (z :: xs). now constructor.
      + intros xs H. inversion H; subst. constructor; [now apply R2|now apply IH2]. }
  destruct Hread as (Hr1 & Hr2).
  assert (Hnotspecial : forall xs, Forall2 (read_as W D) svg xs -> forall d, In d (svg_attributes xs) -> special (fst d) = false).
  { intros xs Hx d Hd. apply read_as_decl in Hx. destruct (Forall2_in_r _ _ _ d Hx Hd) as (x & Hxs & Ex & _).
    destruct (Hp x (Hsvg x Hxs)) as (a & Ea & Hsp & _). congruence. }
  assert (Hfacts : forall xs, Forall2 (read_as W D) svg xs ->
    filter (fun d => aid_eqb (fst d) A_Id) (svg_attributes xs) = [] /\ plain_attribute (lit "style") xs = None /\
    attribute_decls xs = svg_attributes xs).
  { intros xs Hx. split; [|split].
    - apply filter_none. intros d Hd. pose proof (Hnotspecial xs Hx d Hd) as Hsp. destruct (fst d); try reflexivity. discriminate Hsp.
    - unfold plain_attribute. destruct (find _ xs) as [z|] eqn:Ef; [|easy]. exfalso. apply find_some in Ef. destruct Ef as (Hz & Ef).
      apply andb_true_iff in Ef. destruct Ef as (_ & Ef). apply str_eqb_eq in Ef.
      destruct (Forall2_in_r _ _ _ z Hx Hz) as (x & Hxs & _ & _ & a & Ea & Hn). rewrite Ef in Hn.
      replace (attribute_named (lit "style")) with (Some A_Style) in Hn by (vm_compute; reflexivity). injection Hn as <-.
      destruct (Hp x (Hsvg x Hxs)) as (a & Ea' & Hsp & _). rewrite Ea in Ea'. injection Ea' as <-. discriminate Hsp.
    - unfold attribute_decls. apply filter_all. intros d Hd. now rewrite (Hnotspecial xs Hx d Hd). }
  destruct (str_eqb (id_of D n) []) eqn:Ei.
  - apply str_eqb_eq in Ei. cbn [filter app]. split; [exact Hr1|]. intros xs Hxs. specialize (Hr2 xs Hxs).
    destruct (Hfacts xs Hr2) as (F1 & F2 & F3). split; [|split; [exact F2|]].
    + unfold xml_id. rewrite F1, Ei. reflexivity.
    + exists svg. split; [easy|]. rewrite F3. now apply read_as_decl.
  - replace (filter (fun x => negb (is_declaration x)) [(lit "id", id_of D n)]) with [(lit "id", id_of D n)] by reflexivity.
    cbn [app]. split.
    + destruct Hr1 as (xs & Hxs). exists (mkXattr None (lit "id") (id_of D n) :: xs). constructor; [|easy].
      constructor; [reflexivity|now apply value_safe].
    + intros xs H. inversion H as [|y z out' xs' Hz Hxs]; subst. specialize (Hr2 xs' Hxs).
      assert (z = mkXattr None (lit "id") (id_of D n)) as ->.
      { inversion Hz as [? ? v Hs Hval|? ? p l ns' v Hs Hb Hval]; subst; [|discriminate Hs]. f_equal.
        now apply value_unique. }
      destruct (Hfacts xs' Hr2) as (F1 & F2 & F3).
      assert (Esv : svg_attributes (mkXattr None (lit "id") (id_of D n) :: xs') = (A_Id, id_of D n) :: svg_attributes xs').
      { unfold svg_attributes at 1. cbn [flat_map x_ns svg_namespace x_name x_value].
        replace (attribute_named (lit "id")) with (Some A_Id) by (vm_compute; reflexivity). reflexivity. }
      split; [|split].
      * unfold xml_id. rewrite Esv. cbn [filter fst]. replace (aid_eqb A_Id A_Id) with true by reflexivity. rewrite F1. reflexivity.
      * unfold plain_attribute in *. cbn [find x_ns x_name]. replace (ostr_eqb None None && str_eqb (lit "id") (lit "style")) with false by reflexivity.
        exact F2.
      * exists svg. split; [easy|]. unfold attribute_decls. rewrite Esv. cbn [filter fst special negb].
        change (filter (fun d => negb (special (fst d))) (svg_attributes xs')) with (attribute_decls xs'). rewrite F3. now apply read_as_decl.
Qed.

(* ---- the tree *)
Inductive sees (W : writers) (D : dom) (F : forest) : tree -> snode -> Prop :=
| see_element : forall n ts e ds ks svg, node_type D n = NElement -> tag_name D n = QId e ->
    Permutation svg (attributes D n) -> Forall2 (decl_of W D) svg ds -> Forall2 (sees W D F) ts ks ->
    sees W D F (T n ts) (SElement e (id_of D n) ds ks)
| see_text : forall n w1 w2, node_type D n = NText -> forallb white w1 = true -> forallb white w2 = true ->
    (in_text D F n -> w1 = [] /\ w2 = []) -> sees W D F (T n []) (SText (w1 ++ text_of D n ++ w2))
| see_comment : forall n, node_type D n = NComment -> sees W D F (T n []) (SComment (text_of D n)).

Definition is_xtext (y : xml) : bool := match y with XmlText _ => true | _ => false end.
Definition starts_text (l : list xml) : bool := match l with y :: _ => is_xtext y | [] => false end.

Section Reading.
Context (P : values) (W : writers) (D : dom) (F : forest).

(* The reading of one node. *)
Definition reading (u : tree) (y : xml) : Prop :=
  if is_text D (t_node u) then y = XmlText (text_of D (t_node u)) /\ t_kids u = []
  else is_xtext y = false /\ css_texts y = [] /\
       exists sn, sees W D F u sn /\ forall top pin path, svg_part P [] top pin path y = [sn].

(* The reading of a list of children inside of [pin]; [inside] tells whether white space is preserved. *)
Inductive laid (inside : bool) (pin : option eid) : list tree -> list xml -> list snode -> Prop :=
| lay_nil : laid inside pin [] [] []
| lay_gap : forall w ts l sns, inside = false -> forallb white w = true -> white_matters pin = false ->
    starts_text l = false -> laid inside pin ts l sns -> laid inside pin ts (XmlText w :: l) sns
| lay_text : forall n w1 w2 ts l sns, node_type D n = NText -> forallb white w1 = true -> forallb white w2 = true ->
    (inside = true -> w1 = [] /\ w2 = []) -> (in_text D F n -> inside = true) ->
    forallb is_white (w1 ++ text_of D n ++ w2) && negb (white_matters pin) = false ->
    starts_text l = false -> laid inside pin ts l sns ->
    laid inside pin (T n [] :: ts) (XmlText (w1 ++ text_of D n ++ w2) :: l) (SText (w1 ++ text_of D n ++ w2) :: sns)
| lay_other : forall u ts y l sn sns, is_text D (t_node u) = false -> is_xtext y = false -> css_texts y = [] -> sees W D F u sn ->
    (forall top pin path, svg_part P [] top pin path y = [sn]) -> laid inside pin ts l sns ->
    laid inside pin (u :: ts) (y :: l) (sn :: sns).

Lemma white_is_white s : forallb white s = true -> forallb is_white s = true.
Proof.
  intros H. apply forallb_forall. intros c Hc. rewrite forallb_forall in H. specialize (H c Hc). unfold white in H.
  destruct (N.eqb_spec c 32) as [E|]; [subst c; reflexivity|]. destruct (N.eqb_spec c 9) as [E|]; [subst c; reflexivity|].
  destruct (N.eqb_spec c 10) as [E|]; [subst c; reflexivity|]. destruct (N.eqb_spec c 13) as [E|]; [subst c; reflexivity|].
  discriminate H.
Qed.

Lemma laid_parts inside pin ts l sns : laid inside pin ts l sns ->
  Forall2 (sees W D F) ts sns /\ flat_map css_texts l = [] /\ forall top path i, svg_parts P [] top pin path i l = sns.
Proof.
  induction 1 as [|w ts l sns Hi Hw Hm Hs H (IH1 & IH2 & IH3)|n w1 w2 ts l sns Hn Hw1 Hw2 Hi Hin Hk Hs H (IH1 & IH2 & IH3)
                 |u ts y l sn sns Hu Hy Hc Hsee Hp H (IH1 & IH2 & IH3)].
  - split; [constructor|]. now split.
  - split; [easy|]. split; [easy|]. intros top path i. cbn [svg_parts svg_part]. rewrite (white_is_white w Hw), Hm. cbn [andb negb app].
    apply IH3.
  - split; [constructor; [constructor; try easy; intros Hx; now apply Hi, Hin|easy]|]. split; [easy|].
    intros top path i. cbn [svg_parts svg_part].
    rewrite Hk. cbn [app]. f_equal. apply IH3.
  - split; [now constructor|]. split; [cbn [flat_map]; now rewrite Hc|]. intros top path i. cbn [svg_parts].
    rewrite Hp. cbn [app]. f_equal. apply IH3.
Qed.

Lemma merged_other y l : is_xtext y = false -> merged (y :: l) = y :: merged l.
Proof. now destruct y. Qed.
Lemma merged_text s l : merged (XmlText s :: l) =
  match merged l with
  | XmlText u :: r => XmlText (s ++ u) :: r
  | r => match s with [] => r | _ :: _ => XmlText s :: r end
  end.
Proof. reflexivity. Qed.
Lemma merged_text_none s l : starts_text (merged l) = false -> merged (XmlText s :: l) = match s with [] => merged l | _ :: _ => XmlText s :: merged l end.
Proof. rewrite merged_text. intros H. destruct (merged l) as [|[] r]; try easy. Qed.

(* A gap before a list. *)
Lemma laid_gap inside pin g ts l sns : gap inside g -> (inside = false -> white_matters pin = false) ->
  laid inside pin ts (merged l) sns -> exists sns', laid inside pin ts (merged (g ++ l)) sns'.
Proof.
  intros Hg Hm H. inversion Hg as [b|w Hw]; subst; [now exists sns|]. cbn [app]. specialize (Hm eq_refl).
  rewrite merged_text. inversion H as [E1 E2 E3|w' ts' l' sns' Hi Hw' Hm' Hs H' E1 E2 E3
    |n w1 w2 ts' l' sns' Hn Hw1 Hw2 Hi Hin Hk Hs H' E1 E2 E3|u ts' y l' sn sns' Hu Hy Hc Hsee Hp H' E1 E2 E3]; subst.
  - exists []. destruct w; [constructor|]. apply lay_gap; try easy. constructor.
  - exists sns. apply lay_gap; try easy. rewrite forallb_app. now rewrite Hw.
  - rewrite app_assoc. exists (SText ((w ++ w1) ++ text_of D n ++ w2) :: sns'). apply lay_text; try easy.
    + rewrite forallb_app. now rewrite Hw.
    + rewrite <- app_assoc, forallb_app, (white_is_white w Hw). exact Hk.
  - exists (sn :: sns'). destruct y; try easy; (destruct w; [now apply lay_other|]); (apply lay_gap; try easy; now apply lay_other).
Qed.

(* A text before a list. *)
Lemma laid_text inside pin n ts l sns : node_type D n = NText -> text_of D n <> [] ->
  (in_text D F n -> inside = true) ->
  forallb is_white (text_of D n) && negb (white_matters pin) = false ->
  match ts with u :: _ => is_text D (t_node u) = false | [] => True end ->
  laid inside pin ts (merged l) sns ->
  exists s, laid inside pin (T n [] :: ts) (merged (XmlText (text_of D n) :: l)) (SText s :: sns).
Proof.
  intros Hn Hne Hin Hk Hts H. rewrite merged_text.
  assert (G : forall r sns', starts_text r = false -> laid inside pin ts r sns' ->
    laid inside pin (T n [] :: ts) (XmlText (text_of D n) :: r) (SText (text_of D n) :: sns')).
  { intros r sns' Hs Hr. pose proof (lay_text inside pin n [] [] ts r sns') as X. cbn [app] in X. rewrite app_nil_r in X.
    now apply X. }
  inversion H as [E1 E2 E3|w' ts' l' sns' Hi Hw' Hm' Hs H' E1 E2 E3
    |n' w1 w2 ts' l' sns' Hn' Hw1 Hw2 Hi Hin' Hk' Hs H' E1 E2 E3|u ts' y l' sn sns' Hu Hy Hc Hsee Hp H' E1 E2 E3]; subst.
  - exists (text_of D n). destruct (text_of D n) eqn:E; [easy|]. rewrite <- E in *. apply G; [easy|constructor].
  - exists (text_of D n ++ w'). pose proof (lay_text false pin n [] w' ts l' sns) as X. cbn [app] in X. apply X; try easy.
    rewrite Hm' in *. cbn [negb] in *. rewrite andb_true_r in *. rewrite forallb_app, Hk. reflexivity.
  - exfalso. cbn [t_node] in Hts. unfold is_text in Hts. rewrite Hn' in Hts. discriminate Hts.
  - exists (text_of D n). destruct y; try easy; (destruct (text_of D n) eqn:E; [easy|]; rewrite <- E in *; apply G; [easy|now apply lay_other]).
Qed.

Lemma kids_reads inside e pin ts : forall items,
  Forall (fun u => forall item, describes W D F u item -> preserved inside item ->
    (exists y, reads e item y) /\ forall y, reads e item y -> reading u y) ts ->
  Forall2 (describes W D F) ts items -> Forall (preserved inside) items ->
  (inside = false -> white_matters pin = false) ->
  (forall u, In u ts -> is_text D (t_node u) = true -> text_of D (t_node u) <> [] /\
     (in_text D F (t_node u) -> inside = true) /\
     forallb is_white (text_of D (t_node u)) && negb (white_matters pin) = false) ->
  (forall l1 a b l2, map t_node ts = l1 ++ a :: b :: l2 -> is_text D a = true -> is_text D b = true -> False) ->
  (exists ys, reads_all e inside items ys) /\
  forall ys, reads_all e inside items ys -> exists sns, laid inside pin ts (merged ys) sns.
Proof.
  induction ts as [|u ts IH]; intros items HQ Hd Hp Hm Hx Hadj; inversion Hd as [|? item ? items' Hdu Hd']; subst.
  - split; [exists []; constructor; constructor|]. intros ys Hy. inversion Hy as [? ? g Hg|]; subst.
    destruct (laid_gap inside pin ys [] [] []) as (sns & Hl); try easy; [constructor|]. rewrite app_nil_r in Hl. now exists sns.
  - inversion HQ as [|? ? Hu HQ']; subst. inversion Hp as [|? ? Hpi Hp']; subst.
    destruct (IH items' HQ' Hd' Hp' Hm) as (IH1 & IH2).
    { intros v Hv. apply Hx. now right. }
    { intros l1 a b l2 E. apply (Hadj (t_node u :: l1) a b l2). cbn [map]. now rewrite E. }
    destruct (Hu item Hdu Hpi) as (U1 & U2). split.
    + destruct U1 as (y & Hy). destruct IH1 as (ys & Hys). exists ([] ++ y :: ys). constructor; [constructor|easy|easy].
    + intros ys Hy. inversion Hy as [|? ? g ? y ? ys' Hg Hyu Hys]; subst. destruct (IH2 ys' Hys) as (sns & Hl).
      assert (Hflag : item_flag item = inside) by (inversion Hpi; reflexivity). rewrite Hflag in Hg.
      specialize (U2 y Hyu). unfold reading in U2. destruct (is_text D (t_node u)) eqn:Et.
      * destruct U2 as (-> & Ek). destruct (Hx u (or_introl eq_refl) Et) as (X1 & X2 & X3).
        destruct u as [n ks]. cbn [t_node t_kids] in *. subst ks.
        destruct (laid_text inside pin n ts ys' sns) as (x & Hl'); try easy.
        -- unfold is_text in Et. now apply ntype_eqb_eq in Et.
        -- destruct ts as [|v ts]; [easy|]. destruct (is_text D (t_node v)) eqn:Ev; [|easy]. exfalso.
           now apply (Hadj [] n (t_node v) (map t_node ts)).
        -- now apply (laid_gap inside pin g _ (XmlText (text_of D n) :: ys') (SText x :: sns)).
      * destruct U2 as (Hy1 & Hy2 & sn & Hy3 & Hy4).
        apply (laid_gap inside pin g _ (y :: ys') (sn :: sns)); try easy. rewrite (merged_other y ys' Hy1). now apply lay_other.
Qed.

(* ---- the whole document *)
Context (t : tree) (s : nid).
Context (I : InvF D F) (Ht : tree_at F t) (Hroot : t_node t = droot D) (Htop : parent_of F (droot D) = None).
Context (PO : portable P W D F t) (Hs : parent_of F s = Some (droot D)) (Hsvg : tag_name D s = QId E_Svg).
Let Wf : wf_forest F := r_wf _ _ (iv_rep _ _ I).

Definition env_in (e : nsenv) : Prop :=
  e_default e = Some ns_svg /\ bound e (lit "xml") = Some ns_xml /\
  (needs_xlink D F s -> bound e (lit "xlink") = Some ns_xlink).
Definition env_before (n : nid) (e : nsenv) : Prop := n = s /\ e = no_env \/ n <> s /\ env_in e.

Lemma below_not_top n : anc_or_self F s n -> n <> s -> parent_of F n <> Some (droot D).
Proof.
  intros Ha Hn Hp. inversion Ha as [|? ? q Hq Hsq]; subst; [easy|]. assert (q = droot D) by congruence. subst q.
  inversion Hsq; congruence.
Qed.

Lemma env_step n l e : anc_or_self F s n -> plain_attrs W D n -> start_tag W D F n l -> env_before n e ->
  env_in (fold_left declare l e).
Proof.
  intros Ha Hp Hst He. destruct (tag_env W D F n l e Hp Hst) as (ns & Hns & ->). destruct He as [(-> & ->)|(Hn & He)].
  - inversion Hns as [Hx|Hx1 Hx2|Hx1 Hx2]; subst.
    + exfalso. now apply Hx.
    + cbn. split; [reflexivity|]. split; [reflexivity|]. easy.
    + cbn. split; [reflexivity|]. split; reflexivity.
  - assert (Hnt : ~ top_svg D F n) by (intros (_ & Hpar); now apply (below_not_top n Ha Hn)).
    inversion Hns as [Hx|Hx1 Hx2|Hx1 Hx2]; subst; easy.
Qed.

Lemma env_in_for n e : anc_or_self F s n -> env_in e -> env_for D n e.
Proof.
  intros Ha (E1 & E2 & E3). split; [easy|]. split; [easy|]. intros (x & Hx & Ex). apply E3. now exists n, x.
Qed.

Lemma doc_plain n : In n (preorder t) -> plain_attrs W D n.
Proof.
  intros Hn x Hx. destruct (po_attr _ _ _ _ _ PO n x Hn Hx) as (a & e & H1 & _ & H2 & H3 & H4 & _). now exists a.
Qed.

Lemma text_not_element n : is_text D n = true -> is_element D n = false.
Proof. unfold is_text, is_element. now destruct (node_type D n). Qed.
Lemma text_tag n : is_text D n = true -> tag_name D n <> QId E_Text.
Proof.
  intros H. apply text_not_element in H. destruct (iv_plain D F I n H) as (_ & E & _). rewrite E. easy.
Qed.

Lemma text_label e name : tag_label (QId e) name -> str_eqb name (lit "text") = true <-> e = E_Text.
Proof.
  intros H. inversion H as [? ? Hl|]; subst. rewrite str_eqb_eq. split.
  - intros ->. apply (proj2 element_bijection e E_Text (lit "text")); [easy|]. vm_compute. reflexivity.
  - intros ->. replace (element_as_str E_Text) with (Ok (lit "text")) in Hl by (vm_compute; reflexivity). congruence.
Qed.

Lemma tree_reads u : forall inside e item, tree_at F u -> In (t_node u) (preorder t) ->
  describes W D F u item -> preserved inside item ->
  (in_text D F (t_node u) -> tag_name D (t_node u) <> QId E_Text -> inside = true) ->
  (is_element D (t_node u) = true -> anc_or_self F s (t_node u) /\ env_before (t_node u) e) ->
  (exists y, reads e item y) /\ forall y, reads e item y -> reading u y.
Proof.
  induction u as [n ts IH] using tree_ind'. intros inside e item Hu Hn Hd Hp Hin Hel. cbn [t_node] in *.
  inversion Hd as [b1 b2 n' ts' name attrs kids Hty Hl Hst Hk|b n' Hty|b n' Hty]; subst.
  - (* an element *)
    assert (Hisel : is_element D n = true) by (unfold is_element; now rewrite Hty).
    destruct (Hel Hisel) as (Ha & Henv). pose proof (doc_plain n Hn) as Hpl.
    destruct (po_tag _ _ _ _ _ PO n Hn Hisel) as (el & Htag & Hstyle & Hspan). rewrite Htag in Hl.
    pose proof (env_step n attrs e Ha Hpl Hst Henv) as Hein. set (e' := fold_left declare attrs e) in *.
    pose proof (env_in_for n e' Ha Hein) as Hefor.
    destruct (tag_reads W D F n attrs e' Hpl Hst Hefor (po_id _ _ _ _ _ PO n Hn)) as (X1 & X2).
    inversion Hp as [? ? ? ? Hpk| |]; subst. rename b1 into inside. pose proof (text_label el name Hl) as Htl.
    set (inside' := inside || str_eqb name (lit "text")) in *.
    assert (Hkid : forall c, In c ts -> tree_at F c /\ parent_of F (t_node c) = Some n /\ In (t_node c) (preorder t)).
    { intros c Hc. inversion Hu as [? ? Ec Hall]; subst. rewrite Forall_forall in Hall. split; [now apply Hall|].
      assert (Hpc : parent_of F (t_node c) = Some n) by (apply (wf_child F Wf); rewrite Ec; now apply in_map).
      split; [easy|]. apply (preorder_iff F t _ Wf Ht). apply (anc_trans F _ n); [now apply (preorder_iff F t n Wf Ht)|now apply anc_parent]. }
    assert (Hinc : forall c, In c ts -> in_text D F (t_node c) -> tag_name D (t_node c) <> QId E_Text -> inside' = true).
    { intros c Hc (a & Hac & Hat) Hnt. destruct (Hkid c Hc) as (_ & Hpc & _). inversion Hac as [E|? ? q Hq Haq]; subst; [easy|].
      assert (q = n) by congruence. subst q. unfold inside'. destruct (str_eqb name (lit "text")) eqn:En; [now rewrite orb_true_r|].
      rewrite orb_false_r. apply Hin; [now exists a|]. rewrite Htag. intros [= ->]. pose proof (proj2 Htl eq_refl) as Hx. discriminate Hx. }
    assert (Hwm : inside' = false -> white_matters (Some el) = false).
    { intros Hi. apply orb_false_iff in Hi. destruct Hi as (Hi1 & Hi2).
      destruct (white_matters (Some el)) eqn:Ew; [|easy]. exfalso.
      assert (Hnt : el <> E_Text) by (intros E; apply Htl in E; congruence).
      assert (Hsp : el = E_Tspan \/ el = E_Tref) by (destruct el; try discriminate Ew; tauto).
      rewrite Hin in Hi1; [easy|now apply Hspan|]. rewrite Htag. congruence. }
    destruct (kids_reads inside' e' (Some el) ts kids) as (K1 & K2); try easy.
    { apply Forall_forall. intros c Hc item' Hdc Hpc. rewrite Forall_forall in IH. destruct (Hkid c Hc) as (C1 & C2 & C3).
      apply (IH c Hc inside' e' item' C1 C3 Hdc Hpc (Hinc c Hc)). intros _. split.
      - apply (anc_trans F _ n); [easy|now apply anc_parent].
      - right. split; [|easy]. intros Ec. rewrite Ec, Hs in C2. injection C2 as C2. rewrite <- C2 in Hisel.
        unfold is_element in Hisel. rewrite (proj2 (iv_root D F I (droot D) (iv_rlt D F I)) eq_refl) in Hisel. easy. }
    { intros c Hc Hct. destruct (Hkid c Hc) as (C1 & C2 & C3). destruct (po_text _ _ _ _ _ PO (t_node c) C3 Hct) as (T1 & T2 & T3).
      split; [easy|]. split; [intros Hi; apply (Hinc c Hc Hi); now apply text_tag|].
      destruct T3 as [(x & Hx & Hw)|(p & e0 & Hpp & Hte & Hwm')].
      - replace (forallb is_white (text_of D (t_node c))) with false; [easy|]. symmetry.
        destruct (forallb is_white (text_of D (t_node c))) eqn:Ef; [|easy]. rewrite forallb_forall in Ef. rewrite (Ef x Hx) in Hw. easy.
      - assert (p = n) by congruence. subst p. assert (e0 = el) by congruence. subst e0. rewrite Hwm'. apply andb_false_r. }
    { intros l1 a b l2 E. apply (po_apart _ _ _ _ _ PO n l1 a b l2).
      pose proof (tree_at_children F (T n ts) Hu) as Ec. cbn [t_node t_kids] in Ec. now rewrite Ec. }
    inversion Hl as [? ? Hes|]; subst. pose proof (element_split el name Hes) as Hsp. split.
    + destruct X1 as (xs & Hxs). destruct K1 as (ys & Hys). exists (XmlElement (e_default e') name xs (merged ys)).
      apply rd_element; [|now constructor|easy|easy].
      apply (tag_names W D F n attrs); [apply (li_uniq D (iv_link D F I))| |exact Hst]. intros x Hx. now apply (plain_no_clash W D n).
    + intros y Hy. inversion Hy as [? ? ? ? ? ? ns local xs ys Hnd Hrn Hxs Hys| |]; subst. fold e' in Hrn, Hxs, Hys.
      destruct (X2 xs Hxs) as (Hid & Hsty & svg & Hperm & Hdecl). destruct (K2 ys Hys) as (sns & Hlaid).
      destruct (laid_parts inside' (Some el) ts (merged ys) sns Hlaid) as (L1 & L2 & L3).
      assert (Ens : ns = Some ns_svg /\ local = name).
      { inversion Hrn as [? Hsp'|? p l ns' Hsp' Hb]; subst; [|congruence]. split; [apply Hein|easy]. }
      destruct Ens as (-> & ->). unfold reading. cbn [t_node]. unfold is_text. rewrite Hty. cbn [ntype_eqb]. split; [reflexivity|].
      assert (Hnstyle : str_eqb name (lit "style") = false).
      { destruct (str_eqb name (lit "style")) eqn:Est; [|easy]. exfalso. apply Hstyle. apply str_eqb_eq in Est. subst name.
        apply (proj2 element_bijection el E_Style (lit "style")); [easy|]. vm_compute. reflexivity. }
      split; [cbn [css_texts]; rewrite Hnstyle; exact L2|].
      exists (SElement el (id_of D n) (attribute_decls xs) sns). split; [now apply (see_element W D F n ts el _ _ svg)|].
      intros top pin path. cbn [svg_part]. replace (ostr_eqb (Some ns_svg) (Some (lit "http://www.w3.org/2000/svg"))) with true by (vm_compute; reflexivity).
      rewrite (element_named_str el name Hes), go_parts, L3, Hid. do 2 f_equal. unfold declarations, sheet_decls, style_decls.
      rewrite Hsty. cbn [flat_map app]. now rewrite app_nil_r.
  - (* a comment *)
    split; [exists (XmlComment (text_of D n)); constructor; now apply (po_comment _ _ _ _ _ PO)|].
    intros y Hy. inversion Hy; subst. unfold reading. cbn [t_node]. unfold is_text. rewrite Hty. cbn [ntype_eqb].
    split; [reflexivity|]. split; [reflexivity|]. exists (SComment (text_of D n)). split; [now constructor|reflexivity].
  - (* a text *)
    assert (Hit : is_text D n = true) by (unfold is_text; now rewrite Hty).
    split; [exists (XmlText (text_of D n)); constructor; now apply (po_text _ _ _ _ _ PO)|].
    intros y Hy. inversion Hy; subst. unfold reading. cbn [t_node]. now rewrite Hit.
Qed.
End Reading.
