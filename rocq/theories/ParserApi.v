(* All of parsing. *)
From Coq Require Import String List Bool PeanoNat NArith Lia.
From Verif Require Import Base Ids Links Tree Iter ForestSpec TreeSpec Data Attrs Slab NodeApi AttrSpec Doc History DocSpec
  ListFacts TreeProofs ForestFacts IterSpec IterProofs AttrFacts LinkProofs SlabProofs PruneFacts RemoveProofs InvProofs
  HistoryProofs DrainProofs CopyProofs TreeApi ApiProofs DocApi TidyProofs RootProofs Names NamesProofs Types Text TextSpec Loops
  TextProofs TextApi Parser ValueSpec ValueProofs ParserSpec ParserProofs ParserTree ParserLinks.
Import ListNotations.
Open Scope nat_scope.
Open Scope list_scope.

(* ---- declarations *)
Lemma plain_value_from P e a ds v : plain_value P e a ds = Some v -> exists s, In (a, s) ds /\ meaning P e (a, s) = OValue v.
Proof.
  unfold plain_value. intros H.
  assert (Hin : In v (plain_values P e a ds)).
  { apply in_rev. destruct (rev (plain_values P e a ds)); [easy|]. cbn in H. injection H as ->. now left. }
  unfold plain_values in Hin. apply in_flat_map in Hin. destruct Hin as ((b & s) & Hd & Hv). cbn [fst] in Hv.
  destruct (aid_eqb b a) eqn:E; [|easy]. apply aid_eqb_eq in E. subst b. exists s. split; [easy|].
  destruct (meaning P e (a, s)); try easy. destruct Hv as [->|[]]. easy.
Qed.
Lemma space_value P e s v : meaning P e (A_Space, s) = OValue v -> exists w, v = VString w.
Proof. unfold meaning. rewrite read_value_eq. unfold parse_value. cbn. intros [= <-]. now eexists. Qed.
Lemma space_no_link P e s iri fb : meaning P e (A_Space, s) <> OLink iri fb.
Proof. unfold meaning. rewrite read_value_eq. unfold parse_value. cbn. easy. Qed.

(* the element behind a node *)
Lemma built_attrs P D F l ts ls : InvF D F -> built P D l ts ls -> forall x, In x (flat_map preorder ts) ->
  forall q v, In (mkAttr q v) (attributes D x) -> exists a e ds, q = QId a /\ plain_value P e a ds = Some v.
Proof.
  intros I. induction 1 as [|e id ds ks l n ts us l1 l2 H1 H2 H3 H4 Hk IHk Hl IHl|s l n us l2 H1 H2 Hl IHl|s l n us l2 H1 H2 Hl IHl];
    intros x Hx q v Hv.
  - easy.
  - cbn [flat_map preorder] in Hx. destruct Hx as [<-|Hx].
    + apply H4 in Hv. destruct Hv as (a & -> & Hv). now exists a, e, ds.
    + apply in_app_iff in Hx. destruct Hx as [Hx|Hx]; [now apply (IHk x)|now apply (IHl x)].
  - destruct Hx as [<-|Hx]; [|now apply (IHl x)]. destruct (iv_plain D F I n) as (E & _); [unfold is_element; now rewrite H1|].
    rewrite E in Hv. easy.
  - destruct Hx as [<-|Hx]; [|now apply (IHl x)]. destruct (iv_plain D F I n) as (E & _); [unfold is_element; now rewrite H1|].
    rewrite E in Hv. easy.
Qed.

Lemma built_links P D l ts ls : built P D l ts ls -> forall d, In d ls ->
  exists e s, meaning P e (l_attr d, s) = OLink (l_iri d) (l_fallback d).
Proof.
  induction 1 as [|e id ds ks l n ts us l1 l2 H1 H2 H3 H4 Hk IHk Hl IHl|s l n us l2 H1 H2 Hl IHl|s l n us l2 H1 H2 Hl IHl];
    intros d Hd; try easy; [|now apply IHl..].
  rewrite !in_app_iff in Hd. destruct Hd as [Hd|[Hd|Hd]]; [|now apply IHk|now apply IHl].
  unfold references in Hd. apply in_flat_map in Hd. destruct Hd as ((a & s) & _ & Hx). destruct (meaning P e (a, s)) eqn:Em; try easy.
  destruct Hx as [<-|[]]. cbn. now exists e, s.
Qed.

Lemma refers_nil P D l ts ls : built P D l ts ls -> existsb (refers P) l = false -> ls = [].
Proof.
  induction 1 as [|e id ds ks l n ts us l1 l2 H1 H2 H3 H4 Hk IHk Hl IHl|s l n us l2 H1 H2 Hl IHl|s l n us l2 H1 H2 Hl IHl];
    intros H; try easy; [|now apply IHl..].
  cbn [existsb refers] in H. apply orb_false_iff in H. destruct H as (H & Hl0). apply orb_false_iff in H. destruct H as (Hd & Hk0).
  rewrite (IHk Hk0), (IHl Hl0), !app_nil_r. unfold references. clear - Hd.
  induction ds as [|d ds IH]; [easy|]. cbn [existsb] in Hd. apply orb_false_iff in Hd. destruct Hd as (Hd & Hds).
  cbn [flat_map]. rewrite (IH Hds). now destruct (meaning P e d).
Qed.
Lemma quiet_kept P D (p : nid -> bool) : (forall n, is_element D n = true -> p n = tag_eqb (tag_name D n) (QId E_Style)) ->
  (forall n, is_element D n = false -> p n = false) ->
  forall l ts ls, built P D l ts ls -> existsb (style_refers P) l = false ->
  forall d, In d ls -> In (l_node d) (flat_map preorder (keep_nodes p ts)).
Proof.
  intros Hp Hp'.
  induction 1 as [|e id ds ks l n ts us l1 l2 H1 H2 H3 H4 Hk IHk Hl IHl|s l n us l2 H1 H2 Hl IHl|s l n us l2 H1 H2 Hl IHl];
    intros Hq d Hd; [easy| | |]; unfold keep_nodes; cbn [flat_map t_node]; rewrite flat_map_app, in_app_iff.
  2,3: right; now apply IHl.
  assert (Epn : p n = eid_eqb e E_Style).
  { rewrite Hp by (unfold is_element; now rewrite H1). rewrite H2. reflexivity. }
  cbn [existsb] in Hq. apply orb_false_iff in Hq. destruct Hq as (Hq1 & Hq2).
  rewrite Epn. cbn [style_refers] in Hq1. destruct (eid_eqb e E_Style).
  - assert (E0 : references P e n ds ++ l1 = []).
    { replace (references P e n ds ++ l1) with (references P e n ds ++ l1 ++ []) by now rewrite app_nil_r.
      apply (refers_nil P D [SElement e id ds ks] [T n ts]).
      - constructor; try easy. constructor.
      - cbn [existsb]. now rewrite Hq1. }
    rewrite app_assoc, E0 in Hd. right. now apply IHl.
  - rewrite !in_app_iff in Hd. destruct Hd as [Hd|[Hd|Hd]].
    + left. cbn [flat_map]. rewrite app_nil_r, drained_kids. cbn [preorder]. left.
      unfold references in Hd. apply in_flat_map in Hd. destruct Hd as (x & _ & Hx). destruct (meaning P e x); try easy.
      now destruct Hx as [<-|[]].
    + left. cbn [flat_map]. rewrite app_nil_r, drained_kids. cbn [preorder]. right. now apply IHk.
    + right. now apply IHl.
Qed.

(* ---- resolving keeps what it does not name *)
Lemma resolved_space t ls D D' : resolved t ls D D' -> (forall d, In d ls -> l_attr d <> A_Space) ->
  forall n v, In (mkAttr (QId A_Space) v) (attributes D' n) -> In (mkAttr (QId A_Space) v) (attributes D n).
Proof.
  induction 1 as [|d ls D D1 D' H1 H IH]; intros Hs n v Hv; [easy|].
  apply IH in Hv; [|intros d' Hd'; apply Hs; now right]. specialize (Hs d (or_introl eq_refl)).
  assert (G : forall w, only_set D D1 (l_node d) (l_attr d) w -> In (mkAttr (QId A_Space) v) (attributes D n)).
  { intros w (_ & Ha & Ho). destruct (Nat.eq_dec n (l_node d)) as [->|Hn].
    - rewrite Ha, in_app_iff, in_others in Hv. destruct Hv as [(Hv & _)|[Hv|[]]]; [easy|]. injection Hv as E _. congruence.
    - now rewrite <- Ho. }
  unfold resolves in H1. destruct (first_with_id D t (l_iri d)) as [x|]; [|now apply (G (instead d))].
  destruct (refused _ _ _); [now subst D1|now apply (G (pointing d x))].
Qed.

Lemma get_value_in l q v : attrs_get_value l q = Some v -> In (mkAttr q v) l.
Proof.
  induction l as [|x l IH]; cbn [attrs_get_value]; [easy|]. destruct (aname_eqb (a_name x) q) eqn:E.
  - intros [= <-]. apply aname_eqb_eq in E. left. destruct x as [nm w]. cbn in *. now subst nm.
  - intros H. right. now apply IH.
Qed.

(* every node is kept or taken away with a topmost one *)
Lemma kept_or_gone p : forall t x, In x (preorder t) -> In x (preorder (drained p t)) \/ In x (flat_map preorder (flat_map (maximal p) (t_kids t))).
Proof.
  induction t as [n ts IH] using tree_ind'. intros x [<-|Hx]; [left; rewrite drained_kids; now left|]. apply in_flat_map in Hx.
  destruct Hx as (c & Hc & Hx). rewrite Forall_forall in IH. cbn [t_kids]. destruct (p (t_node c)) eqn:Ep.
  - right. apply in_flat_map. exists c. split; [|easy]. apply in_flat_map. exists c. split; [easy|]. destruct c as [m us]. cbn in *. rewrite Ep. now left.
  - destruct (IH c Hc x Hx) as [H|H].
    + left. cbn [drained preorder]. right. apply in_flat_map. exists (drained p c). split; [|easy]. apply in_flat_map. exists c. split; [easy|].
      rewrite Ep. now left.
    + right. apply in_flat_map in H. destruct H as (u & Hu & Hxu). apply in_flat_map. exists u. split; [|easy]. apply in_flat_map. exists c. split; [easy|].
      destruct c as [m us]. cbn in *. now rewrite Ep.
Qed.

(* ---- everything *)
Record run (P : values) (top : list xml) (D1 D2 D3 : dom) (F F3 : forest) (t : tree) (ls : list link) : Prop := {
  rn_leafy1   : reachable_leafy D1;
  rn_inv1     : InvF D1 F;
  rn_acyc     : acyclic F;
  rn_tree     : tree_at F t;
  rn_root     : t_node t = droot D1;
  rn_built    : built P D1 (flat_map no_style (svg_of P top)) (t_kids t) (filter (fun d => mem (l_node d) (preorder t)) ls);
  rn_links    : forall d, In d ls -> is_element D1 (l_node d) = true /\
                  exists e s, meaning P e (l_attr d, s) = OLink (l_iri d) (l_fallback d);
  rn_plain    : unlinked_dom D1;
  rn_key      : forall x, In x (preorder t) -> storage_key D1 x <> None;
  rn_resolve  : resolve_links ls D1 = Ok D2;
  rn_resolved : resolved t ls D1 D2;
  rn_frame    : frame D1 D2;
  rn_inv2     : InvF D2 F;
  rn_tame2    : reachable_tame D2;
  rn_textual  : textual D2 F;
  rn_text     : prepare_text D2 = Ok D3;
  rn_effect   : text_effect D2 F t D3 F3;
  rn_white    : forall n, whitened (text_of D2 n) (text_of D3 n);
  rn_leafy    : reachable_leafy D3;
  rn_quiet    : existsb (style_refers P) (svg_of P top) = false -> forall d, In d ls -> In (l_node d) (preorder t);
  rn_orderly  : existsb (style_refers P) (svg_of P top) = false -> reachable_orderly D3;
  rn_else     : forall d, In d ls -> In (l_node d) (preorder t) \/ storage_key D1 (l_node d) = None;
  rn_calls    : calls (fun o D => (forall x, In x (preorder t) -> storage_key D2 x <> None) -> orderly o D) D2 D3
}.

Lemma svg_element_found P D F l ts ls : InvF D F -> children_of F (droot D) = map t_node ts -> built P D l ts ls ->
  svg_first l -> exists o, svg_element D = Ok o /\ (o <> None <-> first_element l = Some E_Svg).
Proof.
  intros I Hk HB Hf. unfold svg_element. rewrite (root_children_list D F ts I Hk). cbn [bind].
  pose proof (built_tags P D F l ts ls I HB) as Ht. rewrite first_element_hd in *.
  unfold svg_first in Hf. rewrite first_element_hd, <- Ht in Hf. rewrite <- Ht. eexists. split; [reflexivity|].
  destruct (filter_svg D (map t_node ts)) as [|[e n] r]; cbn in *; [easy|].
  destruct Hf as [[=]|[= ->]]. cbn. easy.
Qed.

Lemma new_reachable : exists D0, new_document = Ok D0 /\ started D0 empty_forest.
Proof. destruct new_document_inv as (D0 & E & _). exists D0. split; [easy|now apply started_new]. Qed.

Theorem parse_bad P top : first_element (svg_of P top) <> Some E_Svg -> parse_svg P (Some top) = Ok (PErr NoSvgElement).
Proof.
  intros Hf. unfold parse_svg, parse_tree. destruct new_reachable as (D0 & E0 & S0). rewrite E0. cbn [bind].
  destruct (top_nodes P (resolve_css P top) top [] top 0 D0 empty_forest [] [] [] [] S0) as (H1 & H2); try easy.
  { constructor. }
  { now left. }
  cbn [app] in *. rewrite svg_of_rules in *.
  destruct (first_element (svg_of P top)) as [e|] eqn:Ef.
  - rewrite H2; [easy|]. intros [H|H]; congruence.
  - destruct H1 as (D & F & ts & ls & G & E); [now left|]. rewrite E. cbn [bind fst snd].
    destruct (svg_element_found P D F (svg_of P top) ts ls) as (o & Eo & Ho).
    + apply G.
    + rewrite (gw_root _ _ _ _ _ _ _ _ _ G). rewrite (gw_kids _ _ _ _ _ _ _ _ _ G). easy.
    + apply G.
    + left. exact Ef.
    + rewrite Eo. cbn [bind]. destruct o; [|easy]. exfalso. assert (X : first_element (svg_of P top) = Some E_Svg) by now apply Ho.
      congruence.
Qed.

Theorem parse_good P top : first_element (svg_of P top) = Some E_Svg ->
  exists D1 D2 D3 F F3 t ls, run P top D1 D2 D3 F F3 t ls /\ parse_tree P top = Ok (POk D2) /\ parse_svg P (Some top) = Ok (POk D3).
Proof.
  intros Hf. unfold parse_svg, parse_tree. destruct new_reachable as (D0 & E0 & S0). rewrite E0. cbn [bind].
  destruct (top_nodes P (resolve_css P top) top [] top 0 D0 empty_forest [] [] [] [] S0) as (H1 & _); try easy.
  { constructor. }
  { now left. }
  cbn [app] in H1. rewrite svg_of_rules in H1.
  destruct H1 as (D & F0 & ts & ls & G & E); [now right|]. rewrite E. cbn [bind fst snd].
  pose proof (gw_started _ _ _ _ _ _ _ _ _ G) as St. pose proof (st_inv _ _ St) as I.
  pose proof (gw_root _ _ _ _ _ _ _ _ _ G) as Hroot. pose proof (gw_built _ _ _ _ _ _ _ _ _ G) as HB.
  assert (Hkids : children_of F0 (droot D) = map t_node ts).
  { rewrite Hroot, (gw_kids _ _ _ _ _ _ _ _ _ G). easy. }
  destruct (svg_element_found P D F0 (svg_of P top) ts ls I Hkids HB (or_intror Hf)) as (o & Eo & Ho).
  rewrite Eo. cbn [bind]. destruct o as [n0|]; [|exfalso; now apply Ho]. clear Ho.
  (* style elements *)
  set (t0 := T (droot D) ts).
  assert (Ht0 : tree_at F0 t0) by (constructor; [easy|apply G]).
  assert (Hstable : stable is_style D).
  { intros S D' R x Hx. unfold is_style, has_tag_name. now rewrite (rv_tag _ _ _ R). }
  destruct (drain_spec D F0 t0 is_style I Ht0 (iv_rlt D F0 I) Hstable) as (D1 & Ed & I1 & R1 & T1).
  pose proof (acyclic_prune (flat_map preorder (flat_map (maximal (is_style D)) (t_kids t0))) F0 (st_acyc _ _ St)) as A1.
  set (S := flat_map preorder (flat_map (maximal (is_style D)) (t_kids t0))) in *. cbv zeta in Ed. change (t_node t0) with (droot D) in Ed.
  rewrite Ed. cbn [bind fst]. set (t := drained (is_style D) t0) in *. set (F := f_prune S F0) in *.
  assert (Hp1 : forall n, is_element D n = true -> is_style D n = tag_eqb (tag_name D n) (QId E_Style)) by easy.
  assert (Hp2 : forall n, is_element D n = false -> is_style D n = false).
  { intros n Hn. unfold is_style, has_tag_name. destruct (iv_plain D F0 I n Hn) as (_ & -> & _). reflexivity. }
  pose proof (r_wf _ _ (iv_rep D F0 I)) as W0.
  assert (Hnd : NoDup (preorder t0)) by (apply (preorder_nodup F0); easy).
  assert (Hnd' : NoDup (flat_map preorder ts)) by (inversion Hnd; easy).
  assert (Hrn : ~ In (droot D) (flat_map preorder ts)) by (inversion Hnd; easy).
  assert (Hat : forall x, attributes D1 x = attributes D x).
  { intros x. rewrite (rv_attrs _ _ _ R1). apply filter_all. intros a Ha. unfold cut, svg_link.
    pose proof (st_plain _ _ St x a Ha) as Hl. destruct (a_name a); [|easy].
    replace (is_link_container (a_value a)) with false; [easy|]. destruct (a_value a); easy. }
  assert (HB1 : built P D1 (flat_map no_style (svg_of P top)) (t_kids t) (filter (fun d => mem (l_node d) (preorder t)) ls)).
  { apply (built_same P D); try apply R1; [|exact Hat].
    apply (built_drained P D (is_style D) (fun x => mem x (preorder t)) Hp1 Hp2 (svg_of P top) ts ls HB Hnd').
    intros x Hx. unfold t, t0. rewrite drained_kids. cbn [preorder]. rewrite mem_cons.
    destruct (Nat.eqb_spec x (droot D)) as [->|]; easy. }
  assert (Hr1 : t_node t = droot D1) by (rewrite (rv_root _ _ _ R1); apply drained_node).
  assert (Hel1 : forall x, is_element D1 x = is_element D x) by (intros x; unfold is_element; now rewrite (rv_type _ _ _ R1)).
  assert (Hlinks : forall d, In d ls -> is_element D1 (l_node d) = true /\
                  exists e s, meaning P e (l_attr d, s) = OLink (l_iri d) (l_fallback d)).
  { intros d Hd. destruct (built_nodes _ _ _ _ _ HB d Hd) as (_ & He). rewrite Hel1. split; [easy|].
    now apply (built_links _ _ _ _ _ HB). }
  assert (Hun : unlinked_dom D1) by (intros n a; rewrite Hat; apply (st_plain _ _ St)).
  assert (Hkey1 : forall x, In x (preorder t) -> storage_key D1 x <> None).
  { intros x Hx. rewrite (rv_key _ _ _ R1).
    assert (Hx0 : x < fresh D).
    { apply (tree_nodes_exist D F0 t0 I Ht0); [apply I|]. now apply keep_nodes_in in Hx. }
    replace (mem x S) with false; [now apply (st_alive _ _ St)|]. symmetry. apply mem_not_In. intros Hs.
    apply (preorder_iff F t x (r_wf _ _ (iv_rep _ _ I1)) T1) in Hx. inversion Hx as [|? ? q Hq _]; subst.
    - rewrite Hr1, (rv_root _ _ _ R1) in Hs. apply Hrn. now apply (maximals_sub (is_style D) ts).
    - unfold F, f_prune in Hq. cbn [parent_of] in Hq. apply mem_In in Hs. rewrite Hs in Hq. easy. }
  assert (C01 : calls orderly D0 D1).
  { eapply calls_trans; [apply G|]. apply (calls_step orderly D (ODrain (droot D) is_style) D); [constructor| |easy|easy| |].
    - split; [|exact Logic.I]. intros m [<-|[]]. apply I.
    - split; [|easy]. intros m [<-|[]]. apply (st_alive _ _ St). apply I.
    - unfold step. rewrite Ed. reflexivity. }
  assert (Hl1 : reachable_leafy D1) by (apply (calls_leafy _ D0 D1 C01); now apply leafy_new).
  (* references *)
  destruct (resolve_links_spec t F ls D1 T1 ls D1) as (D2 & E2 & R2 & I2 & F2 & C2); try easy.
  { intros d Hd. now apply Hlinks. }
  rewrite E2. cbn [bind].
  assert (Hl2 : reachable_leafy D2) by now apply (calls_leafy _ D1 D2 C2).
  pose proof (leafy_tame D2 Hl2) as Tm2.
  assert (HS2 : shows (lk D2) F) by now apply shows_Rep, (iv_rep _ _ I2).
  assert (Hspace : forall x v, In (mkAttr (QId A_Space) v) (attributes D x) -> exists s, v = VString s).
  { intros x v Hv. destruct (Nat.lt_ge_cases x (fresh D)) as [Hx|Hx].
    2:{ destruct (blank_facts D F0 x I Hx) as (E1 & _). rewrite E1 in Hv. easy. }
    destruct (Nat.eq_dec x (droot D)) as [->|Hxr].
    { destruct (iv_plain D F0 I (droot D)) as (E1 & _); [|rewrite E1 in Hv; easy].
      unfold is_element. replace (node_type D (droot D)) with NRoot; [easy|]. symmetry. now apply (iv_root D F0 I). }
    assert (Hin : In x (flat_map preorder ts)).
    { apply (gw_new _ _ _ _ _ _ _ _ _ G). split; [|easy]. destruct new_document_inv as (D0' & E0' & _ & Hf0 & Hr0 & _).
      assert (D0' = D0) as -> by congruence. rewrite Hroot, Hr0 in Hxr. rewrite Hf0. unfold nid in *. lia. }
    destruct (built_attrs P D F0 _ _ _ I HB x Hin _ v Hv) as (a & e & ds & [= <-] & Hpv).
    apply plain_value_from in Hpv. destruct Hpv as (s & _ & Hm). now apply space_value in Hm. }
  assert (Htx : textual D2 F).
  { split.
    - intros n p Hp. unfold F, f_prune in Hp. cbn [parent_of] in Hp. destruct (mem n S); [easy|]. destruct (st_above _ _ St n p Hp) as [He|Hr].
      + left. unfold is_element. rewrite (fr_type _ _ F2). now rewrite <- Hel1 in He.
      + right. rewrite (fr_root _ _ F2), (rv_root _ _ _ R1). exact Hr.
    - destruct (leafy_rooted D2 Hl2) as (_ & Q & _). destruct (sh_wf _ _ HS2).
      pose proof (r_parent _ _ (iv_rep _ _ I2) (droot D2)) as X. unfold parent in Q. congruence.
    - intros n v Hv. apply get_value_in in Hv. apply (resolved_space t ls D1 D2 R2) in Hv.
      + rewrite Hat in Hv. now apply (Hspace n).
      + intros d Hd Ea. destruct (Hlinks d Hd) as (_ & e & s & Hm). rewrite Ea in Hm. now apply space_no_link in Hm. }
  assert (Hr2 : t_node t = droot D2) by (rewrite (fr_root _ _ F2); exact Hr1).
  destruct (prepare_effect D2 F t Tm2 HS2 Htx T1 Hr2) as (D3 & F3 & E3 & P3 & C3).
  destruct (text_white_only D2 F Tm2 HS2 Htx) as (D3' & F3' & E3' & _ & Hw & _).
  assert (D3' = D3) as -> by congruence.
  assert (Hquiet : existsb (style_refers P) (svg_of P top) = false -> forall d, In d ls -> In (l_node d) (preorder t)).
  { intros Hq d Hd. unfold t, t0. rewrite drained_kids. right.
    now apply (quiet_kept P D (is_style D) Hp1 Hp2 (svg_of P top) ts ls HB Hq). }
  exists D1, D2, D3, F, F3, t, ls. rewrite E3. split; [|easy]. split; try easy.
  - now apply (calls_leafy _ D2 D3 C3).
  - intros Hq. apply (calls_orderly D2 D3).
    + eapply calls_weaken; [|exact C3]. intros o Dx Ho. apply Ho. intros x Hx. rewrite (fr_key _ _ F2). now apply Hkey1.
    + apply (calls_orderly D1 D2).
      * eapply calls_weaken; [|exact C2]. intros o Dx Ho. apply Ho; [|easy]. intros d Hd. apply Hkey1. now apply Hquiet.
      * apply (calls_orderly D0 D1); [exact C01|]. now apply ord_new.
  - intros d Hd. destruct (built_nodes _ _ _ _ _ HB d Hd) as (Hin & _).
    destruct (kept_or_gone (is_style D) t0 (l_node d)) as [H|H]; [now right|now left|right].
    rewrite (rv_key _ _ _ R1). fold S in H. apply mem_In in H. now rewrite H.
Qed.
