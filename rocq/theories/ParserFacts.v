(* What parsing means for the user. *)
From Coq Require Import String List Bool PeanoNat NArith Lia.
From Coq Require Import SpecFloat.
From Verif Require Import Base Ids Links Tree Iter ForestSpec TreeSpec Data Attrs Slab NodeApi AttrSpec Doc History DocSpec
  ListFacts TreeProofs ForestFacts IterSpec IterProofs AttrFacts LinkProofs SlabProofs PruneFacts RemoveProofs InvProofs
  HistoryProofs DrainProofs CopyProofs TreeApi ApiProofs DocApi TidyProofs RootProofs Names NamesProofs Types Text TextSpec Loops
  TextProofs TextApi Parser ParserSpec ParserProofs ParserTree ParserLinks ParserApi.
Import ListNotations.
Open Scope nat_scope.
Open Scope list_scope.

(* ---- totality *)
Theorem parse_total P doc : exists r, parse_svg P doc = Ok r.
Proof.
  destruct doc as [top|]; [|now eexists].
  assert (Hc : {first_element (svg_of P top) = Some E_Svg} + {first_element (svg_of P top) <> Some E_Svg}).
  { destruct (first_element (svg_of P top)) as [e|]; [|now right]. destruct (eid_eqb e E_Svg) eqn:Ee.
    - left. f_equal. now apply eid_eqb_svg.
    - right. intros [= ->]. discriminate Ee. }
  destruct Hc as [H|H].
  - destruct (parse_good P top H) as (D1 & D2 & D3 & F & F3 & t & ls & _ & _ & E). rewrite E. now eexists.
  - rewrite (parse_bad P top H). now eexists.
Qed.

Lemma parse_run P top D : parse_svg P (Some top) = Ok (POk D) -> first_element (svg_of P top) = Some E_Svg /\
  exists D1 D2 F F3 t ls, run P top D1 D2 D F F3 t ls /\ parse_tree P top = Ok (POk D2).
Proof.
  intros E.
  assert (Hc : {first_element (svg_of P top) = Some E_Svg} + {first_element (svg_of P top) <> Some E_Svg}).
  { destruct (first_element (svg_of P top)) as [e|]; [|now right]. destruct (eid_eqb e E_Svg) eqn:Ee.
    - left. f_equal. now apply eid_eqb_svg.
    - right. intros [= ->]. discriminate Ee. }
  destruct Hc as [H|H].
  - split; [easy|]. destruct (parse_good P top H) as (D1 & D2 & D3 & F & F3 & t & ls & R & Et & E').
    rewrite E' in E. injection E as ->. now exists D1, D2, F, F3, t, ls.
  - rewrite (parse_bad P top H) in E. easy.
Qed.
Lemma tree_run P top D2 : parse_tree P top = Ok (POk D2) ->
  exists D1 D F F3 t ls, run P top D1 D2 D F F3 t ls /\ parse_svg P (Some top) = Ok (POk D).
Proof.
  intros E. destruct (parse_total P (Some top)) as (r & Er). destruct r as [D|er].
  - destruct (parse_run P top D Er) as (_ & D1 & D2' & F & F3 & t & ls & R & Et). rewrite E in Et. injection Et as <-.
    now exists D1, D, F, F3, t, ls.
  - unfold parse_svg in Er. rewrite E in Er. cbn [bind] in Er. destruct (prepare_text D2); cbn in Er; easy.
Qed.

(* ---- from [built] to [laid_out] *)
Definition mine (n : nid) (ls : list link) : list link := filter (fun d => Nat.eqb (l_node d) n) ls.
Definition raw (P : values) (D : dom) (all : list link) (e : eid) (ds : list (aid * str)) (n : nid) : Prop :=
  (forall q v, In (mkAttr q v) (attributes D n) <-> exists a, q = QId a /\ plain_value P e a ds = Some v) /\
  mine n all = references P e n ds.

Lemma mine_none n ls : (forall d, In d ls -> l_node d <> n) -> mine n ls = [].
Proof. intros H. apply filter_none. intros d Hd. apply Nat.eqb_neq. now apply H. Qed.
Lemma mine_references P e n ds : mine n (references P e n ds) = references P e n ds.
Proof.
  apply filter_all. intros d Hd. unfold references in Hd. apply in_flat_map in Hd. destruct Hd as (x & _ & Hx).
  destruct (meaning P e x); try easy. destruct Hx as [<-|[]]. apply Nat.eqb_refl.
Qed.
Lemma mine_app n l1 l2 : mine n (l1 ++ l2) = mine n l1 ++ mine n l2.
Proof. apply filter_app. Qed.
Lemma mine_filter x (f : nid -> bool) ls : f x = true -> mine x (filter (fun d => f (l_node d)) ls) = mine x ls.
Proof.
  intros Hx. unfold mine. induction ls as [|d l IH]; [easy|]. cbn [filter].
  destruct (Nat.eqb (l_node d) x) eqn:Ex.
  - pose proof Ex as Ey. apply Nat.eqb_eq in Ey. rewrite Ey, Hx. cbn [filter]. now rewrite Ex, IH.
  - destruct (f (l_node d)); [|exact IH]. cbn [filter]. now rewrite Ex.
Qed.
Lemma tree_eta t : t = T (t_node t) (t_kids t).
Proof. now destruct t. Qed.
Lemma references_node P e n ds d : In d (references P e n ds) -> l_node d = n.
Proof.
  intros Hd. unfold references in Hd. apply in_flat_map in Hd. destruct Hd as (x & _ & Hx).
  destruct (meaning P e x); try easy. now destruct Hx as [<-|[]].
Qed.

Lemma built_laid P D all l ts ls : built P D l ts ls -> NoDup (flat_map preorder ts) ->
  (forall x, In x (flat_map preorder ts) -> mine x all = mine x ls) -> laid_out (raw P D all) D l ts.
Proof.
  induction 1 as [|e id ds ks l n ts us l1 l2 H1 H2 H3 H4 Hk IHk Hl IHl|s l n us l2 H1 H2 Hl IHl|s l n us l2 H1 H2 Hl IHl];
    intros Hnd Hm; cbn [flat_map preorder app] in Hnd, Hm.
  - constructor.
  - inversion Hnd as [|? ? Hn0 Hnd']; subst.
    pose proof (nodup_app_l _ _ Hnd') as Hnd1. pose proof (NoDup_app_r _ _ Hnd') as Hnd2.
    assert (Hdis : forall x, In x (flat_map preorder ts) -> In x (flat_map preorder us) -> False).
    { intros x Hx1 Hx2. now apply (NoDup_app_disj _ _ x Hnd'). }
    constructor; try easy.
    + split; [exact H4|]. rewrite Hm by now left. rewrite !mine_app, mine_references.
      rewrite (mine_none n l1), (mine_none n l2).
      * now rewrite app_nil_r.
      * intros d Hd E. destruct (built_nodes _ _ _ _ _ Hl d Hd) as (Hi & _). rewrite E in Hi. apply Hn0, in_app_iff. now right.
      * intros d Hd E. destruct (built_nodes _ _ _ _ _ Hk d Hd) as (Hi & _). rewrite E in Hi. apply Hn0, in_app_iff. now left.
    + apply IHk; [easy|]. intros x Hx. rewrite Hm by (right; apply in_app_iff; now left). rewrite !mine_app.
      rewrite (mine_none x (references P e n ds)), (mine_none x l2).
      * now rewrite app_nil_r.
      * intros d Hd E. destruct (built_nodes _ _ _ _ _ Hl d Hd) as (Hi & _). rewrite E in Hi. now apply (Hdis x).
      * intros d Hd E. apply references_node in Hd. rewrite Hd in E. subst x. apply Hn0, in_app_iff. now left.
    + apply IHl; [easy|]. intros x Hx. rewrite Hm by (right; apply in_app_iff; now right). rewrite !mine_app.
      rewrite (mine_none x (references P e n ds)), (mine_none x l1).
      * easy.
      * intros d Hd E. destruct (built_nodes _ _ _ _ _ Hk d Hd) as (Hi & _). rewrite E in Hi. now apply (Hdis x).
      * intros d Hd E. apply references_node in Hd. rewrite Hd in E. subst x. apply Hn0, in_app_iff. now right.
  - inversion Hnd as [|? ? Hn0 Hnd']; subst. constructor; try easy. apply IHl; [easy|]. intros x Hx. apply Hm. now right.
  - inversion Hnd as [|? ? Hn0 Hnd']; subst. constructor; try easy. apply IHl; [easy|]. intros x Hx. apply Hm. now right.
Qed.

(* the declarations and ids in a list of nodes *)
Fixpoint elements (x : snode) : list (eid * str * list (aid * str)) :=
  match x with SElement e id ds ks => (e, id, ds) :: flat_map elements ks | _ => [] end.

Lemma laid_map (Q Q' : eid -> list (aid * str) -> nid -> Prop) D D' l ts : laid_out Q D l ts ->
  (forall n, node_type D' n = node_type D n) -> (forall n, tag_name D' n = tag_name D n) ->
  (forall n, id_of D' n = id_of D n) -> (forall n, text_of D' n = text_of D n) ->
  (forall e ds n, In n (flat_map preorder ts) -> is_element D n = true -> tag_name D n = QId e ->
     In (e, id_of D n, ds) (flat_map elements l) -> Q e ds n -> Q' e ds n) ->
  laid_out Q' D' l ts.
Proof.
  intros H E1 E2 E3 E4.
  induction H as [|e id ds ks l n ts us H1 H2 H3 H4 Hk IHk Hl IHl|s l n us H1 H2 Hl IHl|s l n us H1 H2 Hl IHl]; intros HQ.
  - constructor.
  - constructor; try (now rewrite ?E1, ?E2, ?E3).
    + apply HQ; try easy.
      * now left.
      * unfold is_element. now rewrite H1.
      * cbn [flat_map elements app]. left. now rewrite H3.
    + apply IHk. intros e0 ds0 n0 Hn0 He Ht Hin. apply HQ; try easy.
      * cbn. right. apply in_app_iff. now left.
      * cbn [flat_map elements]. right. apply in_app_iff. now left.
    + apply IHl. intros e0 ds0 n0 Hn0 He Ht Hin. apply HQ; try easy.
      * cbn. right. apply in_app_iff. now right.
      * cbn [flat_map elements]. right. apply in_app_iff. now right.
  - constructor; try (now rewrite ?E1, ?E4). apply IHl. intros e0 ds0 n0 Hn0 He Ht Hin. apply HQ; try easy. now right.
  - constructor; try (now rewrite ?E1, ?E4). apply IHl. intros e0 ds0 n0 Hn0 He Ht Hin. apply HQ; try easy. now right.
Qed.

Lemma laid_shown Q D D' l ts : laid_out Q D l ts ->
  (forall n, node_type D' n = node_type D n) -> (forall n, tag_name D' n = tag_name D n) ->
  (forall n, id_of D' n = id_of D n) -> (forall n, is_text D n = false -> text_of D' n = text_of D n) ->
  (forall n, whitened (text_of D n) (text_of D' n)) ->
  shown Q D' l (keep_nodes (fun n => is_text D n && is_empty (text_of D' n)) ts).
Proof.
  intros H E1 E2 E3 E4 Hw.
  induction H as [|e id ds ks l n ts us H1 H2 H3 H4 Hk IHk Hl IHl|s l n us H1 H2 Hl IHl|s l n us H1 H2 Hl IHl];
    unfold keep_nodes; cbn [flat_map t_node].
  - constructor.
  - replace (is_text D n) with false by (unfold is_text; now rewrite H1). cbn [andb app]. rewrite drained_kids.
    constructor; try (now rewrite ?E1, ?E2, ?E3); easy.
  - replace (is_text D n) with true by (unfold is_text; now rewrite H1). cbn [andb].
    destruct (text_of D' n) as [|c w] eqn:Et; cbn [is_empty app drained flat_map].
    + apply shown_gone; [|exact IHl]. subst s. rewrite <- Et. apply Hw.
    + constructor; try (now rewrite ?E1); try easy.
      * subst s. apply Hw.
      * rewrite Et. easy.
  - replace (is_text D n) with false by (unfold is_text; now rewrite H1). cbn [andb app drained flat_map].
    constructor; try (now rewrite ?E1); try easy. rewrite E4; [easy|]. unfold is_text. now rewrite H1.
Qed.

Lemma shown_map (Q Q' : eid -> list (aid * str) -> nid -> Prop) D l ts : shown Q D l ts ->
  (forall e ds n, Q e ds n -> Q' e ds n) -> shown Q' D l ts.
Proof. intros H HQ. induction H; constructor; auto. Qed.

(* ---- the tree of the document, with all that is known about each element *)
Section Run.
Context (P : values) (top : list xml) (D1 D2 D3 : dom) (F F3 : forest) (t : tree) (ls : list link).
Context (R : run P top D1 D2 D3 F F3 t ls).
Local Notation parts := (flat_map no_style (svg_of P top)).
Local Notation gone := (fun n => is_text D2 n && is_empty (text_of D3 n)).

Definition final_tree : tree := drained gone t.

Lemma run_tree : tree_at F3 final_tree /\ t_node final_tree = droot D3 /\ t_kids final_tree = keep_nodes gone (t_kids t).
Proof.
  pose proof (rn_effect _ _ _ _ _ _ _ _ _ R) as E. split; [apply E|]. split.
  - unfold final_tree. rewrite drained_node, (te_root _ _ _ _ _ E), (fr_root _ _ (rn_frame _ _ _ _ _ _ _ _ _ R)). exact (rn_root _ _ _ _ _ _ _ _ _ R).
  - unfold final_tree. now destruct t.
Qed.

Lemma run_nodup : NoDup (flat_map preorder (t_kids t)) /\ ~ In (t_node t) (flat_map preorder (t_kids t)).
Proof.
  pose proof (preorder_nodup F t (r_wf _ _ (iv_rep _ _ (rn_inv1 _ _ _ _ _ _ _ _ _ R)))
    (rn_tree _ _ _ _ _ _ _ _ _ R)) as H. destruct t as [r ts]. inversion H; subst. easy.
Qed.

Lemma run_laid : laid_out (raw P D1 ls) D1 parts (t_kids t).
Proof.
  destruct run_nodup as (Hnd & _).
  apply (built_laid P D1 ls parts (t_kids t) _ (rn_built _ _ _ _ _ _ _ _ _ R) Hnd).
  intros x Hx. symmetry. apply (mine_filter x (fun y => mem y (preorder t))). apply mem_In. rewrite (tree_eta t). now right.
Qed.

(* data of the stages *)
Lemma run_type n : node_type D2 n = node_type D1 n. Proof. apply (rn_frame _ _ _ _ _ _ _ _ _ R). Qed.
Lemma run_tag n : tag_name D2 n = tag_name D1 n. Proof. apply (rn_frame _ _ _ _ _ _ _ _ _ R). Qed.
Lemma run_id n : id_of D2 n = id_of D1 n. Proof. apply (rn_frame _ _ _ _ _ _ _ _ _ R). Qed.
Lemma run_text n : text_of D2 n = text_of D1 n. Proof. apply (rn_frame _ _ _ _ _ _ _ _ _ R). Qed.
Lemma run_type3 n : node_type D3 n = node_type D2 n. Proof. apply (rn_effect _ _ _ _ _ _ _ _ _ R). Qed.
Lemma run_tag3 n : tag_name D3 n = tag_name D2 n. Proof. apply (rn_effect _ _ _ _ _ _ _ _ _ R). Qed.
Lemma run_id3 n : id_of D3 n = id_of D2 n. Proof. apply (rn_effect _ _ _ _ _ _ _ _ _ R). Qed.
Lemma run_attrs3 n : attributes D3 n = attributes D2 n. Proof. apply (rn_effect _ _ _ _ _ _ _ _ _ R). Qed.

(* any fact about elements that follows from [raw] holds in the end *)
Lemma run_facts (Q : eid -> list (aid * str) -> nid -> Prop) :
  (forall e ds n, In n (flat_map preorder (t_kids t)) -> is_element D1 n = true -> tag_name D1 n = QId e ->
     In (e, id_of D1 n, ds) (flat_map elements parts) -> raw P D1 ls e ds n -> Q e ds n) ->
  laid_out Q D2 parts (t_kids t) /\ shown Q D3 parts (t_kids final_tree).
Proof.
  intros HQ. assert (H2 : laid_out Q D2 parts (t_kids t)).
  { apply (laid_map (raw P D1 ls) Q D1 D2 _ _ run_laid); try easy.
    - apply run_type.
    - apply run_tag.
    - apply run_id.
    - apply run_text. }
  split; [exact H2|]. destruct run_tree as (_ & _ & ->).
  apply (laid_shown Q D2 D3 _ _ H2).
  - apply run_type3.
  - apply run_tag3.
  - apply run_id3.
  - apply (te_plain _ _ _ _ _ (rn_effect _ _ _ _ _ _ _ _ _ R)).
  - apply R.
Qed.

Lemma run_shows : shows (lk D3) F3.
Proof. apply (rn_effect _ _ _ _ _ _ _ _ _ R). Qed.

Lemma run_tame : reachable_tame D3.
Proof. apply leafy_tame, R. Qed.
End Run.
