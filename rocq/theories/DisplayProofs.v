(* The printed form of nodes and attributes. *)
From Coq Require Import String List Bool PeanoNat NArith Permutation.
From Verif Require Import Base Ids Names NamesProofs Links ForestSpec Data Attrs Slab NodeApi AttrSpec Doc AttrFacts History ApiProofs TreeSpec
  Writer WriterSpec WriterProofs WriterApi Display DisplaySpec.
Import ListNotations.
Open Scope string_scope.
Open Scope list_scope.

Lemma display_aname_ok q : exists s, display_aname q = Ok s /\ attr_label q s.
Proof.
  destruct q as [x|s]; [|exists s; split; [reflexivity|constructor]].
  destruct (attr_id_str_ok x) as (s & E & H). exists s. split; [|exact H]. rewrite <- E. now destruct x.
Qed.
Lemma display_tag_ok q : exists s, display_tag q = Ok s /\ tag_label q s.
Proof.
  destruct q as [x|s]; [|exists s; split; [reflexivity|constructor]].
  destruct (element_round x) as (s & E & _). exists s. split; [exact E|now constructor].
Qed.
Lemma display_attr_ok W D a : exists x, display_attr W D a = Ok (quoted x) /\ pair_of W D a x.
Proof.
  destruct (display_aname_ok (a_name a)) as (s & E & H). exists (s, value_str W D (a_value a)).
  unfold display_attr. rewrite E. cbn [bind]. unfold display_value. rewrite <- value_str_eq. split; [reflexivity|]. now split.
Qed.
Lemma display_loop_ok W D : forall l out, exists xs, Forall2 (pair_of W D) l xs /\
  display_loop W D l out = Ok (out ++ flat_map (fun x => quoted x ++ lit " ") xs).
Proof.
  induction l as [|a l IH]; intros out.
  - exists []. split; [constructor|]. cbn. now rewrite app_nil_r.
  - destruct (display_attr_ok W D a) as (x & E & H). destruct (IH (out ++ quoted x ++ lit " ")) as (xs & Hx & E2).
    exists (x :: xs). split; [now constructor|]. cbn [display_loop]. rewrite E. cbn [bind]. rewrite E2. cbn [flat_map].
    now rewrite <- !app_assoc.
Qed.
Lemma joined_spaces : forall l, l <> [] -> flat_map (fun x : str * str => quoted x ++ lit " ") l = joined (lit " ") (map quoted l) ++ lit " ".
Proof.
  induction l as [|x l IH]; [easy|]. intros _. destruct l as [|y l]; [cbn [flat_map map joined]; now rewrite app_nil_r|].
  cbn [flat_map map joined]. cbn [flat_map map] in IH. rewrite IH by easy. now rewrite <- !app_assoc.
Qed.
Lemma display_attrs_ok W D l : exists xs, Forall2 (pair_of W D) l xs /\ display_attrs W D l = Ok (joined (lit " ") (map quoted xs)).
Proof.
  destruct (display_loop_ok W D l []) as (xs & H & E). exists xs. split; [exact H|]. unfold display_attrs.
  destruct l as [|a l]; [now inversion H|]. rewrite E. cbn [bind app].
  rewrite joined_spaces; [|intros ->; inversion H]. f_equal. exact (removelast_last _ _).
Qed.
Lemma debug_attrs_ok W D l : exists xs, Forall2 (pair_of W D) l xs /\
  debug_attrs W D l = Ok (lit "Attributes(" ++ joined (lit " ") (map quoted xs) ++ lit ")").
Proof. destruct (display_attrs_ok W D l) as (xs & H & E). exists xs. split; [exact H|]. unfold debug_attrs. now rewrite E. Qed.

Lemma joined_cons sep s l : joined sep (s :: l) = s ++ match l with [] => [] | _ => sep ++ joined sep l end.
Proof. destruct l; [cbn; now rewrite app_nil_r|reflexivity]. Qed.
Lemma quoted_refs (ids : list str) : ids <> [] -> lit " " ++ joined (lit " ") (map (fun id => lit "'" ++ id ++ lit "'") ids) =
  flat_map (fun id => lit " '" ++ id ++ lit "'") ids.
Proof.
  induction ids as [|x l IH]; [easy|]. intros _. cbn [map]. rewrite joined_cons. destruct l as [|y l]; [cbn; now rewrite !app_nil_r|].
  cbn [map]. cbn [map] in IH. rewrite IH by easy. cbn [flat_map]. now rewrite app_assoc.
Qed.
Lemma content_ok W D n b : exists l, pairs_of W D n l /\ forall name, name ++ match element_content W D n b with Ok c => c | _ => [] end =
    tag_text name l ++ (if b then references (map (id_of D) (linked_nodes D n)) else []) /\
  exists c, element_content W D n b = Ok c.
Proof.
  destruct (display_attrs_ok W D (attributes D n)) as (xs & H & E). unfold element_content. rewrite E. cbn [bind].
  eexists. split; [exists xs; split; [exact H|reflexivity]|]. intros name. split; [|eexists; reflexivity].
  assert (R : (if b then match linked_nodes D n with [] => [] | l => lit "; linked-nodes:" ++ flat_map (fun m => lit " '" ++ id_of D m ++ lit "'") l end else []) =
    if b then references (map (id_of D) (linked_nodes D n)) else []).
  { destruct b; [|reflexivity]. unfold references. destruct (linked_nodes D n) as [|m l]; [reflexivity|].
    transitivity (lit "; linked-nodes:" ++ flat_map (fun id => lit " '" ++ id ++ lit "'") (map (id_of D) (m :: l))).
    - f_equal. generalize (m :: l). intros ms. induction ms as [|x ms IH]; [reflexivity|]. cbn [map flat_map]. now rewrite IH.
    - rewrite <- quoted_refs by easy. reflexivity. }
  rewrite R. clear R. generalize (if b then references (map (id_of D) (linked_nodes D n)) else []). intros r.
  unfold tag_text, has_id. rewrite joined_cons.
  assert (A : match attributes D n with [] => [] | _ :: _ => lit " " ++ joined (lit " ") (map quoted xs) end =
    match map quoted xs with [] => [] | _ => lit " " ++ joined (lit " ") (map quoted xs) end).
  { inversion H; reflexivity. }
  rewrite A. clear A. destruct (id_of D n) as [|c s].
  - cbn [app]. now rewrite <- !app_assoc.
  - cbn [map]. rewrite (joined_cons (lit " ") (quoted _)). change (quoted (lit "id", c :: s)) with (lit "id" ++ lit "='" ++ (c :: s) ++ lit "'").
    change (lit " id='") with (lit " " ++ lit "id" ++ lit "='"). now rewrite <- !app_assoc.
Qed.

Theorem display_printed W D n : exists s, display_node W D n = Ok s /\ printed W D n s.
Proof.
  unfold display_node. destruct (node_type D n) eqn:E; try (eexists; split; [reflexivity|now constructor]).
  destruct (display_tag_ok (tag_name D n)) as (name & Et & Hl). destruct (content_ok W D n false) as (l & Hp & Hc).
  destruct (Hc name) as (Ec & c & Eq). rewrite Et. cbn [bind]. rewrite Eq in *. cbn [bind]. rewrite app_nil_r in Ec.
  eexists. split; [reflexivity|]. rewrite (app_assoc name), Ec. now constructor.
Qed.
Theorem debug_printed W D n : exists s, debug_node W D n = Ok s /\ debugged W D n s.
Proof.
  unfold debug_node. destruct (node_type D n) eqn:E; try (eexists; split; [reflexivity|now constructor]).
  destruct (display_tag_ok (tag_name D n)) as (name & Et & Hl). destruct (content_ok W D n true) as (l & Hp & Hc).
  destruct (Hc name) as (Ec & c & Eq). rewrite Et. cbn [bind]. rewrite Eq in *. cbn [bind].
  eexists. split; [reflexivity|]. rewrite (app_assoc name), Ec, <- (app_assoc (tag_text name l)). now constructor.
Qed.

(* The same pairs as in the file. *)
Lemma pair_written W D a x : a_name a <> QId A_Unicode -> written W D a x <-> pair_of W D a x.
Proof.
  intros H. unfold written, pair_of. destruct (a_name a) as [y|y]; [|reflexivity].
  destruct (aid_eqb y A_Unicode) eqn:E; [apply aid_eqb_eq in E; congruence|]. destruct y; try reflexivity. now elim H.
Qed.
Lemma label_unique q s t : attr_label q s -> attr_label q t -> s = t.
Proof. intros H1 H2. inversion H1; subst; inversion H2; subst; try congruence; easy. Qed.
Lemma pair_unique W D a x y : pair_of W D a x -> pair_of W D a y -> x = y.
Proof.
  intros (L1 & E1) (L2 & E2). destruct x, y. cbn in *. f_equal; [now apply (label_unique (a_name a))|congruence].
Qed.
Lemma Forall2_fun {A B} (R : A -> B -> Prop) l : (forall a, In a l -> exists b, R a b) -> exists bs, Forall2 R l bs.
Proof.
  induction l as [|a l IH]; intros H; [exists []; constructor|]. destruct (H a (or_introl eq_refl)) as (b & Hb).
  destruct IH as (bs & Hbs); [intros x Hx; apply H; now right|]. exists (b :: bs). now constructor.
Qed.
Lemma Forall2_perm {A B} (R : A -> B -> Prop) : (forall a x y, R a x -> R a y -> x = y) ->
  forall l l', Permutation l l' -> forall xs ys, Forall2 R l xs -> Forall2 R l' ys -> Permutation xs ys.
Proof.
  intros U l l' P. induction P as [|a l l' P IH|a b l|l l' l'' P1 IH1 P2 IH2]; intros xs ys H1 H2.
  - inversion H1; inversion H2; constructor.
  - inversion H1 as [|? x ? xs' Hx Hxs]; inversion H2 as [|? y ? ys' Hy Hys]; subst. rewrite (U a x y Hx Hy). constructor. now apply IH.
  - inversion H1 as [|? x1 ? xs1 Hx1 Hxs1]; inversion Hxs1 as [|? x2 ? xs2 Hx2 Hxs2]; subst.
    inversion H2 as [|? y1 ? ys1 Hy1 Hys1]; inversion Hys1 as [|? y2 ? ys2 Hy2 Hys2]; subst.
    rewrite (U _ _ _ Hx1 Hy2), (U _ _ _ Hx2 Hy1). replace ys2 with xs2; [apply perm_swap|].
    clear - U Hxs2 Hys2. revert ys2 Hys2. induction Hxs2 as [|a x l xs Hx Hxs IH]; intros ys H; inversion H; subst; [reflexivity|].
    f_equal; [now apply (U a)|now apply IH].
  - assert (exists zs, Forall2 R l' zs) as (zs & Hz).
    { apply Forall2_fun. intros a Ha. apply Permutation_sym in P1. apply (Permutation_in _ P1) in Ha. clear - H1 Ha.
      induction H1 as [|b x l xs Hx H1 IH]; [destruct Ha|]. destruct Ha as [->|Ha]; [now exists x|exact (IH Ha)]. }
    transitivity zs; [now apply IH1|now apply IH2].
Qed.
Lemma split_perm {A} (f : A -> bool) l : Permutation (filter f l ++ filter (fun x => negb (f x)) l) l.
Proof.
  induction l as [|x l IH]; [constructor|]. cbn. destruct (f x); cbn; [now constructor|].
  apply Permutation_sym, Permutation_cons_app, Permutation_sym, IH.
Qed.
Theorem printed_written W D F n l file : pairs_of W D n l -> start_tag W D F n file ->
  (forall a, In a (attributes D n) -> a_name a <> QId A_Unicode) ->
  exists ns rest, file = ns ++ rest /\ namespaces D F n ns /\ Permutation rest l.
Proof.
  intros (attrs & Ha & ->) (ns & svg & so & co & -> & Hn & Hp & _ & Hs & Hc) Hu.
  eexists ns, _. split; [reflexivity|]. split; [exact Hn|].
  assert (G : Permutation (so ++ co) attrs).
  { apply (Forall2_perm (pair_of W D) (pair_unique W D) (svg ++ filter (fun a => negb (is_svg_attr a)) (attributes D n)) (attributes D n)).
    - transitivity (filter is_svg_attr (attributes D n) ++ filter (fun a => negb (is_svg_attr a)) (attributes D n)); [|apply split_perm].
      apply Permutation_app_tail. rewrite Hp. erewrite filter_ext_in; [reflexivity|]. intros a Hin. cbn.
      destruct (bad_unicode a) eqn:B; [|apply andb_true_r]. apply bad_unicode_iff in B. destruct B as (B & _). now elim (Hu a Hin).
    - apply Forall2_app.
      + assert (K : forall a, In a svg -> In a (attributes D n)).
        { intros a Hin. apply (Permutation_in _ Hp) in Hin. now apply filter_In in Hin. }
        clear - Hs K Hu. induction Hs as [|a x svg so Hx Hs IH]; constructor.
        * apply pair_written; [apply Hu, K; now left|exact Hx].
        * apply IH. intros b Hb. apply K. now right.
      + assert (K : forall a, In a (filter (fun a => negb (is_svg_attr a)) (attributes D n)) -> In a (attributes D n)).
        { intros a Hin. now apply filter_In in Hin. }
        clear - Hc K Hu. induction Hc as [|a x svg so Hx Hs IH]; constructor.
        * apply pair_written; [apply Hu, K; now left|exact Hx].
        * apply IH. intros b Hb. apply K. now right.
    - exact Ha. }
  destruct (id_of D n) as [|c s]; [exact G|]. cbn. now constructor.
Qed.

Theorem printed_file W D F ts : reachable D -> shows (lk D) F -> inner D F -> tree_at F (T (droot D) ts) ->
  exists evs items, write_dom W D = Ok evs /\ read_back evs = Some items /\
    forall n, anc_or_self F (droot D) n -> is_element D n = true -> (forall a, In a (attributes D n) -> a_name a <> QId A_Unicode) ->
      exists name l ns rest b1 kids b2, display_node W D n = Ok (lit "<" ++ tag_text name l ++ lit ">") /\
        occurs (XElement b1 name (ns ++ rest) kids b2) items /\ namespaces D F n ns /\ Permutation rest l.
Proof.
  intros H S Hi Ht. destruct (writer_tags W D F ts H S Hi Ht) as (evs & items & H1 & H2 & H3 & _).
  exists evs, items. split; [exact H1|]. split; [exact H2|]. intros n Hn He Hu.
  destruct (H3 n Hn He) as (b1 & name & attrs & kids & b2 & Ho & Hl & Hs).
  destruct (display_printed W D n) as (s & Es & Hp). unfold is_element in He. apply ntype_eqb_eq in He.
  inversion Hp as [E|name' l E Hl' Hpairs|E|E]; subst; try congruence.
  destruct (printed_written W D F n l attrs Hpairs Hs Hu) as (ns & rest & -> & Hns & HP).
  assert (name' = name) as ->.
  { clear - Hl Hl'. inversion Hl; inversion Hl'; congruence. }
  exists name, l, ns, rest, b1, kids, b2. tauto.
Qed.

(* The debug form lists the ids of the nodes with links to this one. *)
Theorem debug_references D n id : reachable D ->
  In id (map (id_of D) (linked_nodes D n)) <-> exists m, 0 < uses D m n /\ id_of D m = id.
Proof.
  intros H. destruct (mirror_cases D H) as (M & _). rewrite in_map_iff. split.
  - intros (m & E & Hm). exists m. split; [|exact E]. rewrite <- M. now apply (count_occ_In Nat.eq_dec).
  - intros (m & Hu & E). exists m. split; [exact E|]. rewrite <- M in Hu. now apply (count_occ_In Nat.eq_dec) in Hu.
Qed.
Theorem attrs_printed W D l : exists xs, Forall2 (pair_of W D) l xs /\
  display_attrs W D l = Ok (joined (lit " ") (map quoted xs)) /\
  debug_attrs W D l = Ok (lit "Attributes(" ++ joined (lit " ") (map quoted xs) ++ lit ")").
Proof.
  destruct (display_attrs_ok W D l) as (xs & H & E). exists xs. split; [exact H|]. split; [exact E|]. unfold debug_attrs. now rewrite E.
Qed.
