(* What is parsed depends on the SVG part of a file only. *)
From Coq Require Import String List Bool PeanoNat NArith Lia Sorting.Permutation.
From Verif Require Import Base Ids Links Tree Iter ForestSpec TreeSpec ListFacts ForestFacts TreeProofs Data Attrs Slab NodeApi Doc Text
  AttrFacts LinkProofs AttrSpec DocSpec NodeSpec History InvProofs HistoryProofs CopyProofs ApiProofs NodeProofs
  Names Types Parser ParserSpec ParserProofs ParserTree ParserLinks ParserFacts DocApi Loops ParserApi
  ParserStatements Writer OrderSpec OrderProofs OrderWrite XmlOrderSpec XmlOrderText XmlOrderProofs PartSpec.
Import ListNotations.
Open Scope string_scope.
Open Scope nat_scope.
Open Scope list_scope.

(* ---- the trees made from the same nodes *)
Fixpoint ssize (x : snode) : nat := match x with SElement _ _ _ ks => S (list_sum (map ssize ks)) | _ => 1 end.
Lemma built_size P D l ts ls : built P D l ts ls -> length (flat_map preorder ts) = list_sum (map ssize l).
Proof.
  induction 1 as [|e id ds ks l n ts us l1 l2 _ _ _ _ _ IH1 _ IH2|s l n us l2 _ _ _ IH|s l n us l2 _ _ _ IH]; [reflexivity| | |];
    cbn [flat_map preorder map ssize list_sum fold_right app length]; fold (list_sum (map ssize l)).
  - rewrite app_length, IH1, IH2. unfold list_sum. cbn [fold_right]. lia.
  - rewrite IH. unfold list_sum. cbn [fold_right]. lia.
  - rewrite IH. unfold list_sum. cbn [fold_right]. lia.
Qed.
Lemma app_split {A} (a b c d : list A) : length a = length b -> a ++ c = b ++ d -> a = b /\ c = d.
Proof.
  revert b. induction a as [|x a IH]; intros [|y b] H E; try discriminate; [now split|]. cbn in *. injection E as -> E.
  destruct (IH b ltac:(lia) E) as (-> & ->). now split.
Qed.
Lemma built_trees P D D' l ts ls : built P D l ts ls -> forall us ls', built P D' l us ls' -> flat_map preorder ts = flat_map preorder us ->
  ts = us /\ ls = ls'.
Proof.
  induction 1 as [|e id ds ks l n ts us l1 l2 _ _ _ _ B1 IH1 B2 IH2|s l n us l2 _ _ _ IH|s l n us l2 _ _ _ IH]; intros vs ls' B E;
    inversion B; subst; cbn [flat_map preorder app] in E.
  - now split.
  - injection E as -> E. assert (H : length (flat_map preorder ts) = length (flat_map preorder ts0)).
    { rewrite (built_size P D ks ts l1 B1). symmetry. eapply built_size. eassumption. }
    apply (app_split _ _ _ _ H) in E. destruct E as (E1 & E2).
    match goal with B' : built P D' ks _ _, B'' : built P D' l _ _ |- _ => destruct (IH1 _ _ B' E1) as (-> & ->), (IH2 _ _ B'' E2) as (-> & ->) end.
    now split.
  - injection E as -> E. match goal with B' : built P D' l _ _ |- _ => destruct (IH _ _ B' E) as (-> & ->) end. now split.
  - injection E as -> E. match goal with B' : built P D' l _ _ |- _ => destruct (IH _ _ B' E) as (-> & ->) end. now split.
Qed.
Lemma built_nodes_same P D D' l ts ls : built P D l ts ls -> forall ls', built P D' l ts ls' -> forall n, In n (flat_map preorder ts) ->
  node_type D' n = node_type D n /\
  (is_element D n = true -> tag_name D' n = tag_name D n /\ id_of D' n = id_of D n /\ forall a, In a (attributes D' n) <-> In a (attributes D n)) /\
  (is_element D n = false -> text_of D' n = text_of D n).
Proof.
  induction 1 as [|e id ds ks l n ts us l1 l2 T1 T2 T3 T4 B1 IH1 B2 IH2|s l n us l2 T1 T2 _ IH|s l n us l2 T1 T2 _ IH]; intros ls' B m Hm;
    inversion B; subst; cbn [flat_map preorder app] in Hm; [contradiction| | |].
  - destruct Hm as [<-|Hm].
    + split; [congruence|]. split; [|unfold is_element; rewrite T1; discriminate]. intros _. split; [congruence|]. split; [congruence|].
      intros [q v]. rewrite T4. match goal with H : forall q v, In (mkAttr q v) (attributes D' n) <-> _ |- _ => apply H end.
    + apply in_app_iff in Hm. destruct Hm as [Hm|Hm]; [eapply IH1|eapply IH2]; eassumption.
  - destruct Hm as [<-|Hm]; [|eapply IH; eassumption]. split; [congruence|].
    split; [unfold is_element; rewrite T1; discriminate|]. intros _. congruence.
  - destruct Hm as [<-|Hm]; [|eapply IH; eassumption]. split; [congruence|].
    split; [unfold is_element; rewrite T1; discriminate|]. intros _. congruence.
Qed.
Lemma tree_children F F' t : tree_at F t -> tree_at F' t -> forall n, In n (preorder t) -> children_of F' n = children_of F n.
Proof.
  induction t as [m ts IH] using tree_ind'. intros H H' n Hn. inversion H as [? ? E A]; inversion H' as [? ? E' A']; subst.
  cbn [preorder] in Hn. destruct Hn as [<-|Hn]; [congruence|]. apply in_flat_map in Hn. destruct Hn as (u & Hu & Hn).
  rewrite Forall_forall in *. exact (IH u Hu (A u Hu) (A' u Hu) n Hn).
Qed.

(* ---- the same document *)
Section R.
  Context (P : values) (D0 D D' : dom) (F F' : forest) (l : list snode) (ts us : list tree) (ls ls' : list link).
  Context (E0 : new_document = Ok D0) (G : grows P (droot D0) D0 empty_forest D F l ts ls)
    (G' : grows P (droot D0) D0 empty_forest D' F' l us ls').
  Lemma zero : fresh D0 = 1 /\ droot D0 = 0.
  Proof. destruct new_document_inv as (D1 & E & _ & Hf & Hr & _). rewrite E in E0. injection E0 as ->. now split. Qed.
  Lemma same_fresh : fresh D' = fresh D.
  Proof.
    pose proof (built_size _ _ _ _ _ (gw_built _ _ _ _ _ _ _ _ _ G)) as S. pose proof (built_size _ _ _ _ _ (gw_built _ _ _ _ _ _ _ _ _ G')) as S'.
    rewrite (gw_order _ _ _ _ _ _ _ _ _ G), seq_length in S. rewrite (gw_order _ _ _ _ _ _ _ _ _ G'), seq_length in S'.
    pose proof (gw_fresh _ _ _ _ _ _ _ _ _ G). pose proof (gw_fresh _ _ _ _ _ _ _ _ _ G'). lia.
  Qed.
  Lemma same_trees : us = ts /\ ls' = ls.
  Proof.
    destruct (built_trees _ D D' _ _ _ (gw_built _ _ _ _ _ _ _ _ _ G) _ _ (gw_built _ _ _ _ _ _ _ _ _ G')) as (-> & ->); [|now split].
    rewrite (gw_order _ _ _ _ _ _ _ _ _ G), (gw_order _ _ _ _ _ _ _ _ _ G'). now rewrite same_fresh.
  Qed.
  Lemma known n : n < fresh D -> n = 0 \/ In n (flat_map preorder ts).
  Proof.
    intros H. destruct zero as (Z & _). rewrite (gw_order _ _ _ _ _ _ _ _ _ G), in_seq. unfold nid in *. lia.
  Qed.
  Lemma all_tree : tree_at F (T 0 ts) /\ tree_at F' (T 0 ts).
  Proof.
    destruct zero as (_ & Z). destruct same_trees as (Eu & _). split; constructor; try apply G.
    - pose proof (gw_kids _ _ _ _ _ _ _ _ _ G) as K. rewrite Z in K. exact K.
    - pose proof (gw_kids _ _ _ _ _ _ _ _ _ G') as K. rewrite Z, Eu in K. exact K.
    - rewrite <- Eu. apply G'.
  Qed.
  Let I := st_inv _ _ (gw_started _ _ _ _ _ _ _ _ _ G).
  Let I' := st_inv _ _ (gw_started _ _ _ _ _ _ _ _ _ G').
  Lemma same_children n : children_of F' n = children_of F n.
  Proof.
    destruct (Nat.lt_ge_cases n (fresh D)) as [H|H].
    - apply (tree_children F F' (T 0 ts)); try apply all_tree. cbn [preorder]. destruct (known n H) as [->|X]; [now left|now right].
    - destruct (iv_iso _ _ I n H) as (_ & _ & ->). destruct (iv_iso _ _ I' n) as (_ & _ & ->); [now rewrite same_fresh|reflexivity].
  Qed.
  Let W := r_wf _ _ (iv_rep _ _ I).
  Let W' := r_wf _ _ (iv_rep _ _ I').
  Lemma same_parent n : parent_of F' n = parent_of F n.
  Proof.
    destruct (parent_of F n) as [p|] eqn:E.
    - apply (wf_child F' W'). rewrite same_children. now apply (parent_child F W).
    - destruct (parent_of F' n) as [p|] eqn:E'; [|reflexivity]. apply (parent_child F' W') in E'. rewrite same_children in E'.
      apply (wf_child F W) in E'. congruence.
  Qed.
  Lemma same_siblings n : siblings_of F' n = siblings_of F n.
  Proof.
    destruct (parent_of F n) as [p|] eqn:E.
    - rewrite (wf_parent F' W' n p) by now rewrite same_parent. rewrite (wf_parent F W n p E). apply same_children.
    - destruct zero as (Z & Zr). destruct (Nat.lt_ge_cases n (fresh D)) as [H|H].
      + destruct (known n H) as [->|X].
        * rewrite (gb_siblings _ _ _ _ (gw_below _ _ _ _ _ _ _ _ _ G)), (gb_siblings _ _ _ _ (gw_below _ _ _ _ _ _ _ _ _ G')); try reflexivity; try discriminate; lia.
        * exfalso. assert (Hx : In n (preorder (T 0 ts))) by now right. apply (preorder_iff F (T 0 ts) n W (proj1 all_tree)) in Hx.
          inversion Hx as [|? ? q Hq _]; subst; [|congruence]. rewrite (gw_order _ _ _ _ _ _ _ _ _ G), in_seq in X. cbn [t_node] in X. unfold nid in *. lia.
      + destruct (iv_iso _ _ I n H) as (_ & -> & _). destruct (iv_iso _ _ I' n) as (_ & -> & _); [now rewrite same_fresh|reflexivity].
  Qed.
  Lemma same_rel : rel D D'.
  Proof.
    pose proof (iv_rep _ _ I) as Rp. pose proof (iv_rep _ _ I') as Rp'. split.
    - exact (calls_reachable _ _ _ (gw_calls _ _ _ _ _ _ _ _ _ G) (reach_new D0 E0)).
    - exact (calls_reachable _ _ _ (gw_calls _ _ _ _ _ _ _ _ _ G') (reach_new D0 E0)).
    - exact same_fresh.
    - rewrite (gw_root _ _ _ _ _ _ _ _ _ G'). symmetry. apply (gw_root _ _ _ _ _ _ _ _ _ G).
    - exists F. split; (split; [exact W|..]); intros n.
      + apply Rp.
      + apply Rp.
      + apply Rp.
      + apply Rp.
      + apply Rp.
      + rewrite <- same_parent. apply Rp'.
      + rewrite <- same_children. apply Rp'.
      + rewrite <- same_children. apply Rp'.
      + rewrite <- same_siblings. apply Rp'.
      + rewrite <- same_siblings. apply Rp'.
    - intros n Hn. destruct zero as (Z & Zr). destruct (known n Hn) as [->|X].
      + assert (Ed : dt D' 0 = dt D 0).
        { rewrite (gw_data _ _ _ _ _ _ _ _ _ G), (gw_data _ _ _ _ _ _ _ _ _ G'); [reflexivity|lia|lia]. }
        unfold node_type, tag_name, id_of, text_of, attributes, is_detached, storage_key. split; unfold node_type, tag_name, id_of, text_of, attributes, is_detached, storage_key; now rewrite Ed.
      + destruct same_trees as (Eu & _). pose proof (gw_built _ _ _ _ _ _ _ _ _ G') as B'. rewrite Eu in B'.
        destruct (built_nodes_same _ _ _ _ _ _ (gw_built _ _ _ _ _ _ _ _ _ G) _ B' n X) as (Ht & He & Hw).
        assert (He' : is_element D' n = is_element D n) by (unfold is_element; now rewrite Ht).
        assert (Hd : is_detached D' n = is_detached D n).
        { unfold is_detached. assert (A : storage_key D n <> None) by now apply (st_alive _ _ (gw_started _ _ _ _ _ _ _ _ _ G)).
          assert (A' : storage_key D' n <> None) by (apply (st_alive _ _ (gw_started _ _ _ _ _ _ _ _ _ G')); rewrite same_fresh; exact Hn).
          destruct (storage_key D n), (storage_key D' n); congruence. }
        destruct (is_element D n) eqn:El.
        * destruct (He eq_refl) as (h1 & h2 & h3). split; try assumption.
          -- rewrite (gw_words _ _ _ _ _ _ _ _ _ G n X El), (gw_words _ _ _ _ _ _ _ _ _ G' n); [reflexivity|now rewrite Eu|exact He'].
          -- apply NoDup_Permutation; [apply (NoDup_map_inv a_name), (li_uniq D' (iv_link _ _ I'))|apply (NoDup_map_inv a_name), (li_uniq D (iv_link _ _ I))|exact h3].
        * destruct (iv_plain _ _ I n El) as (a1 & a2 & a3), (iv_plain _ _ I' n He') as (b1 & b2 & b3).
          split; try congruence; [now apply Hw|now rewrite a1, b1].
  Qed.
End R.

(* ---- after the tree is made *)
Lemma rest_sim D D' ls : rel D D' -> (forall r, drain (droot D) is_style D = Ok r -> rooted (fst r)) ->
  same_outcome dres
    (r <- (o <- svg_element D ;; match o with None => Ok (PErr NoSvgElement) | Some _ =>
       r <- drain (droot D) is_style D ;; D <- resolve_links ls (fst r) ;; Ok (POk D) end) ;;
     match r with POk D => D <- prepare_text D ;; Ok (POk D) | PErr er => Ok (PErr er) end)
    (r <- (o <- svg_element D' ;; match o with None => Ok (PErr NoSvgElement) | Some _ =>
       r <- drain (droot D') is_style D' ;; D <- resolve_links ls (fst r) ;; Ok (POk D) end) ;;
     match r with POk D => D <- prepare_text D ;; Ok (POk D) | PErr er => Ok (PErr er) end).
Proof.
  intros R Q. rewrite (svg_element_api _ _ (rl_reach _ _ R) (rl_reach' _ _ R) (rel_akin _ _ R)).
  destruct (svg_element D) as [[n|]| |]; try exact Logic.I; [|reflexivity]. cbn [bind]. rewrite (rl_root _ _ R).
  pose proof (drain_sim (droot D) is_style _ _ R (fair_style _)) as Dr.
  destruct (drain (droot D) is_style D) as [r| |], (drain (droot D) is_style D') as [r'| |]; try contradiction; try exact Logic.I.
  cbn [bind]. specialize (Q r eq_refl).
  pose proof (links_each ls (fst r) (fst r') (conj (proj1 Dr) Q)) as L.
  destruct (resolve_links ls (fst r)) as [D2| |], (resolve_links ls (fst r')) as [D2'| |]; try contradiction; try exact Logic.I.
  cbn [bind]. apply (outcome_bind rel); [apply prepare_text_sim, L|intros a b Rab; exact Rab].
Qed.
Theorem part_sim P top top' : svg_of P top' = svg_of P top -> same_outcome dres (parse_svg P (Some top)) (parse_svg P (Some top')).
Proof.
  intros Es. unfold parse_svg, parse_tree. destruct (new_document) as [D0| |] eqn:E0; try exact Logic.I. cbn [bind].
  pose proof (started_new D0 E0) as S0.
  destruct (top_nodes P (resolve_css P top) top [] top 0 D0 empty_forest [] [] [] [] S0) as (H1 & H2); try easy.
  { constructor. }
  { now left. }
  destruct (top_nodes P (resolve_css P top') top' [] top' 0 D0 empty_forest [] [] [] [] S0) as (H1' & H2'); try easy.
  { constructor. }
  { now left. }
  cbn [app] in *. rewrite svg_of_rules in H1, H2, H1', H2'. rewrite Es in H1', H2'.
  assert (C : svg_first (svg_of P top) \/ ~ svg_first (svg_of P top)).
  { unfold svg_first. destruct (first_element _) as [e|]; [|left; now left]. destruct (eid_eqb e E_Svg) eqn:X.
    - left. right. apply eid_eqb_svg in X. now subst e.
    - right. intros [[=]|[= ->]]. discriminate X. }
  destruct C as [C|C]; [|rewrite (H2 C), (H2' C); reflexivity].
  destruct (H1 C) as (D & F & ts & ls & G & E). destruct (H1' C) as (D' & F' & us & ls' & G' & E').
  pose proof (fun r => drained_rooted P top D0 (D, ls) r E0 E) as Q. cbn [fst] in Q.
  rewrite E, E'. cbn [bind fst snd]. destruct (same_trees P D0 D D' F F' _ ts us ls ls' G G') as (_ & ->).
  pose proof (rest_sim D D' ls (same_rel P D0 D D' F F' _ ts us ls _ E0 G G') (fun r Hr => proj1 (Q r Hr))) as R.
  exact R.
Qed.
Theorem part_api P top top' : svg_of P top' = svg_of P top -> parsed_alike (parse_svg P (Some top)) (parse_svg P (Some top')).
Proof.
  intros Es. pose proof (part_sim P top top' Es) as S. destruct (parse_total P (Some top)) as (r & E), (parse_total P (Some top')) as (r' & E').
  rewrite E, E' in *. destruct r as [D|e], r' as [D'|e']; try contradiction; [|exact S]. exact (rel_akin _ _ S).
Qed.
Theorem part_written P W top top' D D' : svg_of P top' = svg_of P top ->
  parse_svg P (Some top) = Ok (POk D) -> parse_svg P (Some top') = Ok (POk D') -> write_dom W D' = write_dom W D.
Proof.
  intros Es E E'. pose proof (part_api P top top' Es) as A. rewrite E, E' in A.
  apply written_api; [| |exact A|].
  - apply tame_reachable, (parsed_reachable P top D E).
  - apply tame_reachable, (parsed_reachable P top' D' E').
  - intros n _. now rewrite !named_custom by (eapply parsed_named; eassumption).
Qed.

(* ---- without what is not SVG *)
Fixpoint plain_part (P : values) (inside : option eid) (x : xml) : list snode :=
  match x with
  | XmlElement ns local attrs kids =>
      if ostr_eqb ns (Some (lit "http://www.w3.org/2000/svg")) then
        match element_named local with
        | Some e => [SElement e (xml_id attrs) (attribute_decls attrs ++ style_decls P attrs) (flat_map (plain_part P (Some e)) kids)]
        | None => []
        end
      else []
  | XmlText s => if forallb is_white s && negb (white_matters inside) then [] else [SText s]
  | XmlComment s => [SComment s]
  | XmlOther => []
  end.
Lemma xml_induction (Q : xml -> Prop) :
  (forall ns local attrs kids, (forall x, In x kids -> Q x) -> Q (XmlElement ns local attrs kids)) ->
  (forall s, Q (XmlText s)) -> (forall s, Q (XmlComment s)) -> Q XmlOther -> forall x, Q x.
Proof.
  intros He Ht Hc Ho. fix IH 1. intros [ns local attrs kids|s|s|]; [|apply Ht|apply Hc|exact Ho]. apply He.
  induction kids as [|k kids IHk]; [intros x []|]. intros x [<-|Hx]; [apply IH|exact (IHk x Hx)].
Qed.
Lemma part_plain P top : forall x inside path, svg_part P [] top inside path x = plain_part P inside x.
Proof.
  induction x as [ns local attrs kids IH|s|s|] using xml_induction; intros inside path; cbn [svg_part plain_part]; try reflexivity.
  destruct (ostr_eqb ns _); [|reflexivity]. destruct (element_named local) as [e|]; [|reflexivity].
  unfold declarations, sheet_decls. cbn [flat_map app]. f_equal. f_equal.
  match goal with |- ?f 0 kids = _ => set (go := f) end. generalize 0.
  induction kids as [|k kids IHk]; intros i; [reflexivity|]. cbn [flat_map]. rewrite <- (IH k (or_introl eq_refl) (Some e) (path ++ [i])).
  cbn. f_equal. apply IHk. intros x Hx. apply IH. now right.
Qed.
Lemma parts_plain P top inside path : forall l i, svg_parts P [] top inside path i l = flat_map (plain_part P inside) l.
Proof. induction l as [|x l IH]; intros i; [reflexivity|]. cbn [svg_parts flat_map]. now rewrite part_plain, IH. Qed.
Lemma attributes_only attrs : svg_attributes (filter svg_attribute attrs) = svg_attributes attrs.
Proof.
  unfold svg_attributes. induction attrs as [|x l IH]; [reflexivity|]. cbn [filter flat_map]. rewrite <- IH. unfold svg_attribute at 1.
  destruct (svg_namespace (x_ns x)) eqn:E; cbn [andb]; [|reflexivity]. destruct (attribute_named (x_name x)) eqn:E2; [|reflexivity].
  cbn [flat_map]. now rewrite E, E2.
Qed.
Lemma style_only attrs : plain_attribute (lit "style") (filter svg_attribute attrs) = plain_attribute (lit "style") attrs.
Proof.
  unfold plain_attribute. f_equal. induction attrs as [|x l IH]; [reflexivity|]. cbn [filter find].
  destruct (ostr_eqb (x_ns x) None && str_eqb (x_name x) (lit "style")) eqn:E.
  - assert (K : svg_attribute x = true).
    { apply andb_true_iff in E. destruct E as (E1 & E2). unfold svg_attribute. apply str_eqb_eq in E2. rewrite E2.
      destruct (x_ns x); [discriminate E1|]. vm_compute. reflexivity. }
    rewrite K. cbn [find]. now rewrite E.
  - destruct (svg_attribute x); [|exact IH]. cbn [find]. rewrite E. exact IH.
Qed.
Lemma plain_only P : forall x inside, flat_map (plain_part P inside) (only_svg inside x) = plain_part P inside x.
Proof.
  induction x as [ns local attrs kids IH|s|s|] using xml_induction; intros inside; cbn [only_svg plain_part]; try reflexivity.
  - unfold svg_element_name. destruct ns as [s|]; [|reflexivity]. cbn [ostr_eqb]. destruct (str_eqb s _) eqn:En; [|reflexivity].
    cbn [andb]. destruct (element_named local) as [e|] eqn:Ee; [|reflexivity].
    cbn [flat_map plain_part app ostr_eqb]. rewrite En, Ee. unfold xml_id, attribute_decls, style_decls.
    rewrite attributes_only, style_only.
    match goal with |- ([SElement _ _ _ ?a] ++ [])%list = [SElement _ _ _ ?b] => assert (K : a = b); [|now rewrite K] end.
    induction kids as [|k kids IHk]; [reflexivity|]. cbn [flat_map]. rewrite flat_map_app, (IH k (or_introl eq_refl)).
    f_equal. apply IHk. intros x Hx. apply IH. now right.
  - destruct (forallb is_white s && negb (white_matters inside)) eqn:E; [reflexivity|]. cbn [flat_map plain_part app]. now rewrite E.
Qed.
Theorem only_same P top : no_rules P top -> no_rules P (flat_map (only_svg None) top) ->
  svg_of P (flat_map (only_svg None) top) = svg_of P top.
Proof.
  unfold no_rules, svg_of. intros -> ->. rewrite !parts_plain. induction top as [|x l IH]; [reflexivity|].
  cbn [flat_map]. now rewrite flat_map_app, plain_only, IH.
Qed.
