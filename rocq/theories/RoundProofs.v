(* Writing a document and parsing the file again gives the same document. *)
From Coq Require Import String List Bool PeanoNat NArith Permutation Sorted Lia.
From Verif Require Import Base Ids Names NamesProofs Links Tree Iter ForestSpec TreeSpec ListFacts TreeProofs ForestFacts
  IterSpec IterProofs Data Attrs AttrFacts AttrSpec Slab NodeApi Doc DocSpec History LinkProofs InvProofs HistoryProofs TreeApi ApiProofs
  Text TextSpec TextApi Writer WriterSpec WriterProofs WriterApi Parser ParserSpec ParserTree ParserLinks ParserApi
  RoundSpec RoundRead RoundMatch RoundResolve RoundText.
Import ListNotations.
Open Scope nat_scope.
Open Scope list_scope.

(* No style elements are read. *)
Lemma sees_no_style W D F u : forall sn, sees W D F u sn ->
  (forall n e, In n (preorder u) -> is_element D n = true -> tag_name D n = QId e -> e <> E_Style) ->
  no_style sn = [sn] /\ forall P, style_refers P sn = false.
Proof.
  induction u as [n ts IH] using tree_ind'. intros sn Hs Hno. inversion Hs as [? ? e ds ks svg Hty Htag Hp Hd Hk| |]; subst; [|easy|easy].
  assert (He : eid_eqb e E_Style = false).
  { destruct (eid_eqb e E_Style) eqn:E; [|easy]. apply eid_eqb_eq in E. subst e. exfalso.
    apply (Hno n E_Style (or_introl eq_refl)); [unfold is_element; now rewrite Hty|easy|easy]. }
  assert (G : flat_map no_style ks = ks /\ forall P, existsb (style_refers P) ks = false).
  { assert (Hno' : forall n e, In n (flat_map preorder ts) -> is_element D n = true -> tag_name D n = QId e -> e <> E_Style).
    { intros m e' Hm. apply Hno. now right. }
    clear Hs Hno Hd Hp. revert ks Hk. induction IH as [|u ts Hu IH IH2]; intros ks Hk; inversion Hk as [|? k ? ks' H1 H2]; subst; [easy|].
    destruct (Hu k H1) as (U1 & U2).
    { intros m e' Hm. apply Hno'. cbn. apply in_or_app. now left. }
    destruct (IH2 (fun m e' Hm => Hno' m e' (in_or_app _ _ _ (or_intror Hm))) ks' H2) as (V1 & V2).
    cbn [flat_map existsb]. rewrite U1, V1. split; [easy|]. intros P. now rewrite U2, V2. }
  destruct G as (G1 & G2). cbn [no_style style_refers]. rewrite He, G1. split; [easy|]. exact G2.
Qed.

Lemma sees_first W D F ts : forall sns l1 s l2, Forall2 (sees W D F) ts sns -> ts = l1 ++ s :: l2 ->
  is_element D (t_node s) = true -> tag_name D (t_node s) = QId E_Svg -> (forall c, In c (l1 ++ l2) -> node_type D (t_node c) = NComment) ->
  first_element sns = Some E_Svg.
Proof.
  intros sns l1. revert ts sns. induction l1 as [|c l1 IH]; intros ts sns s l2 Hs -> He Ht Hc; cbn [app] in *;
    inversion Hs as [|? y ? ys Hy Hys]; subst.
  - inversion Hy as [n us e ds ks svg Hty Htag| |]; subst; cbn [t_node] in *.
    + cbn. congruence.
    + unfold is_element in He. now rewrite H in He.
    + unfold is_element in He. now rewrite H in He.
  - pose proof (Hc c (or_introl eq_refl)) as Hcc. inversion Hy as [n us e ds ks svg Hty Htag| |]; subst; cbn [t_node] in *; try congruence.
    cbn [first_element]. apply (IH _ ys s l2 Hys eq_refl He Ht). intros x Hx. apply Hc. now right.
Qed.

Theorem round_trip P W D F t : reachable D -> shows (lk D) F -> tree_at F t -> t_node t = droot D ->
  portable P W D F t -> settled D F t -> p_sheet P [] = [] ->
  exists evs items, write_dom W D = Ok evs /\ read_back evs = Some items /\ (exists top, reads_file items top) /\
    forall top, reads_file items top -> exists D' t', parse_svg P (Some top) = Ok (POk D') /\ document_tree D' t' /\ same_document D t D' t'.
Proof.
  intros HR HS Ht Hr PO HSet Hsheet.
  pose proof (shows_inv D F HR HS) as I.
  pose proof (r_wf _ _ (iv_rep _ _ I)) as Wf. pose proof (po_root _ _ _ _ _ PO) as Hroot.
  assert (Et : t = T (droot D) (t_kids t)) by (destruct t; cbn in *; now subst).
  assert (Ht' : tree_at F (T (droot D) (t_kids t))) by now rewrite <- Et.
  destruct (write_dom_spec W D F I (po_inner _ _ _ _ _ PO) (t_kids t) Ht') as (evs & items & E1 & E2 & E3 & E4 & _).
  exists evs, items. split; [easy|]. split; [easy|].
  destruct (file_reads P W D F t items I Ht Hr Hroot PO Hsheet E3 (E4 (po_flat _ _ _ _ _ PO))) as (G1 & G2).
  split; [exact G1|]. intros top Htop. specialize (G2 top Htop). clear G1 Htop E1 E2 E3 E4 evs items.
  destruct (po_top _ _ _ _ _ PO) as (l1 & s & l2 & Ek & Hse & Hst & Hco).
  pose proof (sees_first W D F (t_kids t) (svg_of P top) l1 s l2 G2 Ek Hse Hst Hco) as Hfirst.
  destruct (parse_good P top Hfirst) as (D1 & D2 & D3 & F1 & F3 & t1 & ls & RN & _ & Ep).
  exists D3, t1. split; [exact Ep|]. clear Ep Hfirst l1 s l2 Ek Hse Hst Hco.
  (* no style elements *)
  assert (Hns : flat_map no_style (svg_of P top) = svg_of P top /\ existsb (style_refers P) (svg_of P top) = false).
  { assert (Hno : forall u n, In u (t_kids t) -> In n (preorder u) -> In n (preorder t)).
    { intros u n Hu Hn. rewrite Et. right. apply in_flat_map. now exists u. }
    assert (Hno2 : forall u, In u (t_kids t) -> forall n e, In n (preorder u) -> is_element D n = true -> tag_name D n = QId e -> e <> E_Style).
    { intros u Hu n e Hn He Htn. destruct (po_tag _ _ _ _ _ PO n (Hno u n Hu Hn) He) as (e' & Ee & Hs & _). congruence. }
    clear - G2 Hno2. induction G2 as [|u sn ts sns Hu H IH]; [easy|].
    destruct (sees_no_style W D F u sn Hu (Hno2 u (or_introl eq_refl))) as (U1 & U2).
    destruct (IH (fun v Hv => Hno2 v (or_intror Hv))) as (V1 & V2). cbn [flat_map existsb]. rewrite U1, V1, (U2 P), V2. easy. }
  destruct Hns as (Hns & Hquiet). pose proof (rn_built _ _ _ _ _ _ _ _ _ RN) as HB. rewrite Hns in HB.
  assert (Els : filter (fun d => mem (l_node d) (preorder t1)) ls = ls).
  { apply filter_all. intros d Hd. apply mem_In. now apply (rn_quiet _ _ _ _ _ _ _ _ _ RN Hquiet). }
  rewrite Els in HB. clear Els.
  pose proof (rn_inv1 _ _ _ _ _ _ _ _ _ RN) as I1. pose proof (rn_inv2 _ _ _ _ _ _ _ _ _ RN) as I2.
  pose proof (rn_tree _ _ _ _ _ _ _ _ _ RN) as Ht1. pose proof (rn_acyc _ _ _ _ _ _ _ _ _ RN) as A1.
  pose proof (rn_frame _ _ _ _ _ _ _ _ _ RN) as FR. pose proof (rn_effect _ _ _ _ _ _ _ _ _ RN) as TE.
  pose proof (rn_textual _ _ _ _ _ _ _ _ _ RN) as TX. pose proof (rn_root _ _ _ _ _ _ _ _ _ RN) as Hr1.
  pose proof (r_wf _ _ (iv_rep _ _ I1)) as Wf1.
  destruct (built_matches P W D F D1 F1 I I1 _ _ _ HB (t_kids t) G2) as (Hsh & HM & HL).
  assert (Et1 : t1 = T (droot D1) (t_kids t1)) by (destruct t1; cbn in *; now subst).
  assert (Hshape : same_shape t t1) by (rewrite Et, Et1; now constructor).
  assert (Hplace : forall n n', same_place t t1 n n' -> n = droot D /\ n' = droot D1 \/ In (n, n') (places (t_kids t) (t_kids t1))).
  { intros n n' H. unfold same_place in H. rewrite Et, Et1, places_node in H. destruct H as [[= <- <-]|H]; [now left|now right]. }
  assert (Hplace2 : forall n n', In (n, n') (places (t_kids t) (t_kids t1)) -> same_place t t1 n n').
  { intros n n' H. unfold same_place. rewrite Et, Et1, places_node. now right. }
  assert (Hnd : NoDup (preorder t)) by now apply (preorder_nodup F).
  assert (Hnd1 : NoDup (preorder t1)) by now apply (preorder_nodup F1).
  assert (HRt : node_type D (droot D) = NRoot) by apply (proj2 (iv_root D F I (droot D) (iv_rlt D F I)) eq_refl).
  assert (HRt1 : node_type D1 (droot D1) = NRoot) by apply (proj2 (iv_root D1 F1 I1 (droot D1) (iv_rlt D1 F1 I1)) eq_refl).
  assert (HM' : forall n n', same_place t t1 n n' -> matches P W D F D1 ls n n').
  { intros n n' H. destruct (Hplace n n' H) as [(-> & ->)|Hp]; [|now apply HM].
    assert (X : is_element D (droot D) = false) by (unfold is_element; now rewrite HRt).
    assert (X1 : is_element D1 (droot D1) = false) by (unfold is_element; now rewrite HRt1).
    destruct (iv_plain D F I (droot D) X) as (B1 & B2 & B3). destruct (iv_plain D1 F1 I1 (droot D1) X1) as (C1 & C2 & C3).
    split; try congruence.
    intros q v. rewrite B1, C1. split; [easy|]. intros (a & x & e & _ & [] & _). }
  assert (HL' : forall d, In d ls -> exists n x e, same_place t t1 n (l_node d) /\ In x (attributes D n) /\ a_name x = QId (l_attr d) /\
     tag_name D n = QId e /\ meaning P e (l_attr d, value_text W D x) = OLink (l_iri d) (l_fallback d)).
  { intros d Hd. destruct (HL d Hd) as (n & x & e & Hp & H). exists n, x, e. split; [now apply Hplace2|exact H]. }
  pose proof (attributes_match P W D F t D1 t1 ls I PO Hshape Hnd Hnd1 HM' HL' D2 (rn_resolved _ _ _ _ _ _ _ _ _ RN)) as HAT.
  assert (Hty : forall n n', same_place t t1 n n' -> node_type D2 n' = node_type D n).
  { intros n n' H. rewrite (fr_type _ _ FR). apply (HM' n n' H). }
  assert (Hel : forall n n', same_place t t1 n n' -> is_element D2 n' = is_element D n).
  { intros n n' H. unfold is_element. now rewrite (Hty n n' H). }
  assert (Htx : forall n n', same_place t t1 n n' -> is_text D2 n' = is_text D n).
  { intros n n' H. unfold is_text. now rewrite (Hty n n' H). }
  assert (Hsp : forall n n', same_place t t1 n n' -> own_space D2 n' = own_space D n).
  { intros n n' H. destruct (HAT n n' H) as (T1 & T2). unfold own_space.
    pose proof (get_value_spec (attributes D n) (QId A_Space) (li_uniq D (iv_link D F I) n)) as Q.
    pose proof (get_value_spec (attributes D2 n') (QId A_Space) (li_uniq D2 (iv_link D2 F1 I2) n')) as Q2.
    destruct (attrs_get_value (attributes D2 n') (QId A_Space)) as [v'|] eqn:E2'.
    - destruct (tx_space D2 F1 TX n' v' E2') as (s & ->). destruct (T2 (QId A_Space) (VString s)) as (v & Hv & Hs).
      { now apply Q2. }
      apply Q in Hv. rewrite Hv. inversion Hs; subst. reflexivity.
    - destruct (attrs_get_value (attributes D n) (QId A_Space)) as [v|] eqn:E1'; [|easy].
      destruct (T1 (QId A_Space) v) as (v' & Hv' & _); [now apply Q|]. apply Q2 in Hv'. discriminate Hv'. }
  assert (Hroot1 : parent_of F1 (t_node t1) = None).
  { rewrite Hr1, <- (fr_root _ _ FR). apply (tx_top D2 F1 TX). }
  assert (Hr2 : t_node t1 = droot D2) by (rewrite Hr1; symmetry; apply (fr_root _ _ FR)).
  assert (HS2 : shows (lk D2) F1) by apply shows_Rep, (iv_rep _ _ I2).
  assert (Hroot0 : parent_of F (t_node t) = None) by now rewrite Hr.
  assert (Hpads : forall n n', same_place t t1 n n' -> is_text D n = true -> text_of D n <> [] /\
    exists w1 w2, forallb white w1 = true /\ forallb white w2 = true /\
      (in_text D F n -> w1 = [] /\ w2 = []) /\ text_of D2 n' = w1 ++ text_of D n ++ w2).
  { intros n n' H Hx. split; [apply (po_text _ _ _ _ _ PO n); [now apply in_combine_l in H|easy]|]. rewrite (fr_text _ _ FR).
    apply (ma_text _ _ _ _ _ _ _ _ (HM' n n' H)). unfold is_text in Hx. now destruct (node_type D n). }
  pose proof (texts_same D F t D2 F1 t1 Wf Wf1 Ht Ht1 Hshape Hroot0 Hroot1 Hel Htx Hsp Hnd Hnd1
    (rn_tame2 _ _ _ _ _ _ _ _ _ RN) HS2 TX Hr2 D3 F3 TE HSet Hpads) as HTT.
  split.
  - exists F3. split; [apply TE|]. split; [|now rewrite (te_root _ _ _ _ _ TE)].
    rewrite <- (drained_same (fun n => is_text D2 n && is_empty (text_of D3 n)) t1); [apply TE|]. intros n' Hn'.
    destruct (is_text D2 n') eqn:Ex; [|easy]. cbn [andb].
    assert (exists n, same_place t t1 n n') as (n & Hn).
    { clear - Hn' Hshape. apply shape_length in Hshape. unfold same_place. revert Hshape Hn'. generalize (preorder t1), (preorder t).
      induction l as [|a l IH]; intros [|b m] E Hin; try easy. destruct Hin as [->|Hin]; [exists b; now left|].
      destruct (IH m) as (x & Hx); [cbn in E; congruence|easy|]. exists x. now right. }
    rewrite (Htx n n' Hn) in Ex. rewrite (HTT n n' Hn Ex). destruct (Hpads n n' Hn Ex) as (Hne & _). now destruct (text_of D n).
  - split; [exact Hshape|]. intros n n' Hn. pose proof (HM' n n' Hn) as M. destruct (HAT n n' Hn) as (T1 & T2). split.
    + rewrite (te_type _ _ _ _ _ TE). now apply Hty.
    + rewrite (te_tag _ _ _ _ _ TE), (fr_tag _ _ FR). apply M.
    + rewrite (te_id _ _ _ _ _ TE), (fr_id _ _ FR). apply M.
    + intros [Hx|Hx].
      * apply HTT; [easy|]. unfold is_text. now rewrite Hx.
      * rewrite (te_plain _ _ _ _ _ TE); [|rewrite (Htx n n' Hn); unfold is_text; now rewrite Hx].
        rewrite (fr_text _ _ FR). now apply M.
    + intros q v. rewrite (te_attrs _ _ _ _ _ TE). apply T1.
    + intros q v'. rewrite (te_attrs _ _ _ _ _ TE). apply T2.
Qed.
