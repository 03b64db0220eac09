(* What is written depends on what can be seen only. *)
From Coq Require Import List Bool PeanoNat NArith Lia.
From Verif Require Import Base Ids Names Links Tree Iter ForestSpec ListFacts TreeProofs ForestFacts IterSpec IterProofs Data Attrs Slab NodeApi Doc
  AttrSpec AttrFacts LinkProofs DocSpec History InvProofs HistoryProofs TreeSpec TreeApi ApiProofs Text Writer WriterSpec WriterProofs
  UndoSpec UndoProofs SameSpec.
Import ListNotations.

(* ---- documents that look the same *)
Lemma Forall2_impl2 {A B} (R Q : A -> B -> Prop) l l' : (forall a b, R a b -> Q a b) -> Forall2 R l l' -> Forall2 Q l l'.
Proof. intros H. induction 1; constructor; auto. Qed.
Lemma flat_step {A B} (f : A -> res (list B)) x l : flat_res f (x :: l) = (a <- f x ;; b <- flat_res f l ;; Ok (a ++ b)).
Proof. reflexivity. Qed.
Section Two.
  Context (W : writers) (D D' : dom) (F F' : forest).
  Context (I : InvF D F) (I' : InvF D' F').

  Lemma value_same v w : same_value D D' v w -> write_value W D v = write_value W D' w.
  Proof.
    intros [x Hx|t u E|t u E|t u f E]; cbn [write_value]; try now rewrite E.
    destruct x; cbn in *; try discriminate; reflexivity.
  Qed.
  Lemma value_string v w : same_value D D' v w -> (forall s, v = VString s <-> w = VString s).
  Proof. intros [x Hx|t u E|t u E|t u f E] s; split; intros; try discriminate; easy. Qed.

  Definition same_attr (a b : attr) : Prop := a_name a = a_name b /\ same_value D D' (a_value a) (a_value b).
  Lemma attrs_get_same l l' x : Forall2 same_attr l l' ->
    match attrs_get l x, attrs_get l' x with Some a, Some b => same_attr a b | None, None => True | _, _ => False end.
  Proof.
    induction 1 as [|a b l l' S _ IH]; cbn [attrs_get]; [exact Logic.I|]. rewrite <- (proj1 S).
    destruct (aname_eqb (a_name a) x); [exact S|exact IH].
  Qed.
  Lemma svg_same l l' : Forall2 same_attr l l' ->
    map (fun x => (fst x, a_name (snd x))) (attrs_svg l) = map (fun x => (fst x, a_name (snd x))) (attrs_svg l').
  Proof.
    induction 1 as [|a b l l' (S1 & S2) _ IH]; [reflexivity|]. unfold attrs_svg in *. cbn [flat_map filter map].
    destruct a as [na va], b as [nb vb]. cbn in S1. subst nb. cbn. destruct na; cbn; [now rewrite IH|exact IH].
  Qed.
  Lemma svg_attr_same l l' x : Forall2 same_attr l l' -> write_svg_attr W D l x = write_svg_attr W D' l' x.
  Proof.
    intros H. unfold write_svg_attr. pose proof (attrs_get_same l l' (snd x) H) as G.
    destruct (attrs_get l (snd x)) as [a|], (attrs_get l' (snd x)) as [b|]; try contradiction; [|reflexivity]. cbn [unwrap bind].
    destruct (attr_id_str (fst x)); [|reflexivity|reflexivity]. cbn [bind]. destruct (aid_eqb (fst x) A_Unicode).
    - destruct G as (_ & G). destruct G as [v Hv|t u E|t u E|t u f E]; reflexivity.
    - now rewrite (value_same _ _ (proj2 G)).
  Qed.
  Lemma custom_same l l' : Forall2 same_attr l l' -> flat_map (write_custom_attr W D) l = flat_map (write_custom_attr W D') l'.
  Proof.
    induction 1 as [|a b l l' S _ IH]; [reflexivity|]. cbn [flat_map]. rewrite IH. f_equal. unfold write_custom_attr.
    rewrite <- (proj1 S), (value_same _ _ (proj2 S)). reflexivity.
  Qed.
  Lemma flat_res_ext {A B} (f g : A -> res (list B)) l : (forall x, f x = g x) -> flat_res f l = flat_res g l.
  Proof. intros H. induction l as [|x l IH]; [reflexivity|]. cbn. rewrite H, IH. reflexivity. Qed.
  Lemma has_href_same l l' x : Forall2 same_attr l l' -> attrs_contains l x = attrs_contains l' x.
  Proof. unfold attrs_contains. induction 1 as [|a b l l' S _ IH]; [reflexivity|]. cbn [existsb]. now rewrite IH, (proj1 S). Qed.

  Definition below_root (E : dom) (G : forest) (n : nid) : bool :=
    match parent_of G n with Some p => is_root E p | None => false end.

  Inductive twins : edge -> edge -> Prop :=
  | tw_start : forall t u, tree_at F t -> tree_at F' u -> t_node t < fresh D -> t_node u < fresh D' -> same_tree D D' t u ->
      (is_element D (t_node t) = true -> below_root D F (t_node t) = below_root D' F' (t_node u)) ->
      twins (Start (t_node t)) (Start (t_node u))
  | tw_end : forall t u, same_tree D D' t u -> twins (End (t_node t)) (End (t_node u)).

  Lemma same_preorder t u : same_tree D D' t u -> Forall2 (fun n m => Forall2 same_attr (attributes D n) (attributes D' m)) (preorder t) (preorder u).
  Proof.
    revert u. induction t as [n ts IH] using tree_ind'. intros u H. inversion H as [? m ? us A1 A2 A3 A4 A5 A6]; subst. cbn [preorder].
    constructor; [exact A5|]. clear H A5. revert us A6. induction IH as [|c ts Hc _ IHts]; intros us A6; inversion A6; subst; cbn [flat_map]; [constructor|].
    apply Forall2_app; [now apply Hc|now apply IHts].
  Qed.
  Lemma any_same p q l l' : Forall2 (fun n m => p n = q m) l l' ->
    (exists n : nid, In n l /\ p n = true) <-> (exists m : nid, In m l' /\ q m = true).
  Proof.
    induction 1 as [|n m l l' E _ IH]; [split; intros (x & [] & _)|]. split.
    - intros (x & [<-|Hx] & Hp); [exists m; split; [now left|congruence]|]. destruct (proj1 IH) as (y & Hy & Hq); [now exists x|].
      exists y. split; [now right|exact Hq].
    - intros (x & [<-|Hx] & Hp); [exists n; split; [now left|congruence]|]. destruct (proj2 IH) as (y & Hy & Hq); [now exists x|].
      exists y. split; [now right|exact Hq].
  Qed.

  Lemma namespaces_same t u : tree_at F t -> tree_at F' u -> t_node t < fresh D -> t_node u < fresh D' -> same_tree D D' t u ->
    is_element D (t_node t) = true -> below_root D F (t_node t) = below_root D' F' (t_node u) ->
    write_namespaces D (t_node t) = write_namespaces D' (t_node u).
  Proof.
    intros Ht Hu Hn Hm S He Hb. unfold write_namespaces.
    assert (Etag : has_tag_name D (t_node t) (QId E_Svg) = has_tag_name D' (t_node u) (QId E_Svg)).
    { inversion S; subst. unfold has_tag_name. cbn [t_node]. congruence. }
    rewrite <- Etag. destruct (has_tag_name D (t_node t) (QId E_Svg)); [|reflexivity].
    rewrite (r_parent _ _ (iv_rep D F I)), (r_parent _ _ (iv_rep D' F' I')). unfold below_root in Hb.
    destruct (any_descendant_spec D F t (fun m => has_attribute D m (QId A_Href)) (iv_rep D F I) Ht (2 * enough D)) as (b & Eb & B).
    { pose proof (tree_size D F t I Ht Hn). unfold enough. lia. }
    destruct (any_descendant_spec D' F' u (fun m => has_attribute D' m (QId A_Href)) (iv_rep D' F' I') Hu (2 * enough D')) as (b' & Eb' & B').
    { pose proof (tree_size D' F' u I' Hu Hm). unfold enough. lia. }
    assert (Ebb : b = b').
    { apply eq_true_iff_eq. rewrite B, B'. apply any_same. eapply Forall2_impl2; [|exact (same_preorder t u S)]. intros x y Hx.
      unfold has_attribute. now apply has_href_same. }
    rewrite Eb, Eb', <- Ebb.
    destruct (parent_of F (t_node t)) as [p|], (parent_of F' (t_node u)) as [q|]; [rewrite Hb|rewrite Hb|rewrite <- Hb|]; reflexivity.
  Qed.
  Lemma edge_same e e' : twins e e' -> write_edge W D e = write_edge W D' e'.
  Proof.
    intros [t u Ht Hu Hn Hm S Hb|t u S]; pose proof S as S0; inversion S as [n m ts us A1 A2 A3 A4 A5 A6 Q1 Q2]; subst; cbn [t_node] in *; cbn [write_edge].
    - rewrite <- A1, <- A4. destruct (node_type D n) eqn:Et; try reflexivity.
      assert (He : is_element D n = true) by (unfold is_element; now rewrite Et). specialize (Hb He).
      rewrite <- A2. destruct (tag_str (tag_name D n)); [|reflexivity|reflexivity]. cbn [bind]. unfold write_attributes.
      pose proof (namespaces_same (T n ts) (T m us) Ht Hu Hn Hm S0 He Hb) as Ns. cbn [t_node] in Ns. rewrite Ns.
      destruct (write_namespaces D' m); [|reflexivity|reflexivity]. cbn [bind]. rewrite (svg_same _ _ A5).
      rewrite (flat_res_ext _ (write_svg_attr W D' (attributes D' m)) _ (fun x => svg_attr_same _ _ x A5)).
      destruct (flat_res _ _); [|reflexivity|reflexivity]. cbn [bind]. rewrite (custom_same _ _ A5). unfold has_id, has_tag_name. now rewrite A3, A2.
    - unfold is_element, has_tag_name. now rewrite A1, A2.
  Qed.

  Lemma edges_same t u : same_tree D D' t u -> tree_at F t -> tree_at F' u -> (forall x, In x (preorder t) -> x < fresh D) ->
    (forall x, In x (preorder u) -> x < fresh D') ->
    (is_element D (t_node t) = true -> below_root D F (t_node t) = below_root D' F' (t_node u)) ->
    Forall2 twins (edges t) (edges u).
  Proof.
    revert u. induction t as [n ts IH] using tree_ind'. intros u S Ht Hu Hf Hf' Hb.
    pose proof S as S0. inversion S as [? m ? us A1 A2 A3 A4 A5 A6]; subst. inversion Ht as [? ? C1 T1]; subst. inversion Hu as [? ? C2 T2]; subst.
    cbn [edges]. constructor.
    { apply (tw_start (T n ts) (T m us)); try assumption; [apply Hf|apply Hf']; now left. }
    apply Forall2_app; [|constructor; [exact (tw_end (T n ts) (T m us) S0)|constructor]].
    assert (P1 : forall c, In c ts -> parent_of F (t_node c) = Some n).
    { intros c Hc. apply (wf_child F (r_wf _ _ (iv_rep D F I))). rewrite C1. now apply in_map. }
    assert (P2 : forall c, In c us -> parent_of F' (t_node c) = Some m).
    { intros c Hc. apply (wf_child F' (r_wf _ _ (iv_rep D' F' I'))). rewrite C2. now apply in_map. }
    assert (G1 : forall x, In x (flat_map preorder ts) -> x < fresh D) by (intros x Hx; apply Hf; now right).
    assert (G2 : forall x, In x (flat_map preorder us) -> x < fresh D') by (intros x Hx; apply Hf'; now right).
    clear S S0 Ht Hu Hf Hf' Hb C1 C2 A5. revert us A6 T2 P2 G2.
    induction ts as [|c ts IHts]; intros us A6 T2 P2 G2; inversion A6 as [|? d ? vs Sc Ss]; subst; cbn [flat_map]; [constructor|].
    inversion IH as [|? ? Hc IHl]; subst. inversion T1; subst. inversion T2; subst. cbn [flat_map] in *.
    apply Forall2_app.
    - apply Hc; try assumption; [intros x Hx; apply G1, in_or_app; now left|intros x Hx; apply G2, in_or_app; now left|].
      intros _. unfold below_root. rewrite (P1 c (or_introl eq_refl)), (P2 d (or_introl eq_refl)). unfold is_root. now rewrite A1.
    - apply IHts; try assumption; [intros e He; apply P1; now right|intros x Hx; apply G1, in_or_app; now right|
        intros e He; apply P2; now right|intros x Hx; apply G2, in_or_app; now right].
  Qed.
  Lemma tree_below E G t : InvF E G -> tree_at G t -> t_node t < fresh E -> forall x, In x (preorder t) -> x < fresh E.
  Proof.
    intros J Ht Hn x Hx. revert Hn x Hx. induction t as [n ts IH] using tree_ind'. intros Hn x Hx. inversion Ht as [? ? C Tl]; subst.
    cbn [preorder t_node] in *. destruct Hx as [<-|Hx]; [exact Hn|]. apply in_flat_map in Hx. destruct Hx as (c & Hc & Hx).
    rewrite Forall_forall in IH, Tl. apply (IH c Hc (Tl c Hc)); [|exact Hx].
    destruct (Nat.lt_ge_cases (t_node c) (fresh E)) as [|Hge]; [assumption|]. exfalso.
    destruct (iv_iso E G J (t_node c) Hge) as (Hp & _). rewrite (wf_child G (r_wf _ _ (iv_rep E G J)) n (t_node c)) in Hp; [discriminate|].
    rewrite C. now apply in_map.
  Qed.
  Lemma flat_res_twins l l' : Forall2 twins l l' -> flat_res (write_edge W D) l = flat_res (write_edge W D') l'.
  Proof. induction 1 as [|e e' l l' H _ IH]; [reflexivity|]. now rewrite !flat_step, (edge_same e e' H), IH. Qed.

  Theorem write_same ts us : tree_at F (T (droot D) ts) -> tree_at F' (T (droot D') us) -> same_tree D D' (T (droot D) ts) (T (droot D') us) ->
    write_dom W D = write_dom W D'.
  Proof.
    intros Ht Hu S. unfold write_dom.
    pose proof (tree_size D F _ I Ht (iv_rlt D F I)) as Z. pose proof (tree_size D' F' _ I' Hu (iv_rlt D' F' I')) as Z'.
    pose proof (traverse_collect_spec (lk D) F _ (2 * enough D) (iv_rep D F I) Ht) as X. cbn [t_node] in X. rewrite X by (rewrite ?edges_length; unfold enough; lia). clear X.
    pose proof (traverse_collect_spec (lk D') F' _ (2 * enough D') (iv_rep D' F' I') Hu) as X. cbn [t_node] in X. rewrite X by (rewrite ?edges_length; unfold enough; lia). clear X.
    cbn [bind]. apply flat_res_twins. apply edges_same; try assumption.
    - exact (tree_below D F _ I Ht (iv_rlt D F I)).
    - exact (tree_below D' F' _ I' Hu (iv_rlt D' F' I')).
    - cbn [t_node]. intros He. pose proof (proj2 (iv_root D F I (droot D) (iv_rlt D F I)) eq_refl) as Hr. unfold is_element in He. rewrite Hr in He. discriminate.
  Qed.
End Two.

Lemma same_written W D D' F F' ts us : reachable D -> reachable D' -> shows (lk D) F -> shows (lk D') F' ->
  tree_at F (T (droot D) ts) -> tree_at F' (T (droot D') us) -> same_tree D D' (T (droot D) ts) (T (droot D') us) ->
  write_dom W D = write_dom W D'.
Proof. intros H H' S S'. exact (write_same W D D' F F' (shows_inv D F H S) (shows_inv D' F' H' S') ts us). Qed.

(* ---- documents that look as before *)
Lemma chain_same (nx nx' : nid -> option nid) : forall l l' : list nid,
  (forall l1 x l2, l = l1 ++ x :: l2 -> nx x = hd_error l2) -> (forall l1 x l2, l' = l1 ++ x :: l2 -> nx' x = hd_error l2) ->
  (forall x, In x l -> nx' x = nx x) -> hd_error l' = hd_error l -> l' = l.
Proof.
  induction l as [|x l IH]; intros [|y l'] H H' E Hd; try discriminate; [reflexivity|]. injection Hd as ->. f_equal. apply IH.
  - intros l1 z l2 ->. apply (H (x :: l1)). reflexivity.
  - intros l1 z l2 ->. apply (H' (x :: l1)). reflexivity.
  - intros z Hz. apply E. now right.
  - rewrite <- (H [] x l eq_refl), <- (H' [] x l' eq_refl). apply E. now left.
Qed.
Lemma succ_split x l1 l2 : NoDup (l1 ++ x :: l2) -> succ_in x (l1 ++ x :: l2) = hd_error l2.
Proof.
  induction l1 as [|y l1 IH]; cbn [app succ_in]; intros H; [now rewrite Nat.eqb_refl|].
  inversion H as [|? ? Hy Hn]; subst. destruct (Nat.eqb_spec y x) as [->|]; [|now apply IH].
  exfalso. apply Hy, in_or_app. right. now left.
Qed.
Lemma shows_chain L F p : shows L F -> forall l1 x l2, children_of F p = l1 ++ x :: l2 -> next_sibling L x = hd_error l2.
Proof.
  intros S l1 x l2 E. rewrite (sh_next _ _ S). pose proof (sh_wf _ _ S) as Wf.
  assert (Hp : parent_of F x = Some p) by (apply (wf_child F Wf); rewrite E; apply in_or_app; right; now left).
  rewrite (wf_parent F Wf x p Hp), E. apply succ_split. rewrite <- E, <- (wf_parent F Wf x p Hp). apply (wf_nodup F Wf).
Qed.
Lemma before_tree D D' F F' t : reachable D -> shows (lk D) F -> shows (lk D') F' -> as_before D D' -> tree_at F t -> exists_node D (t_node t) -> tree_at F' t.
Proof.
  intros H S S' B. pose proof (shows_inv D F H S) as J.
  induction t as [n ts IH] using tree_ind'. intros Ht Hn. pose proof (tree_below D F _ J Ht Hn) as Hf.
  inversion Ht as [? ? C Tl]; subst. cbn [t_node] in Hn.
  assert (Hc : forall c, In c ts -> exists_node D (t_node c)).
  { intros c Hc. apply Hf. cbn [preorder]. right. apply in_flat_map. exists c. split; [exact Hc|]. destruct c. now left. }
  constructor.
  - rewrite <- C. apply (chain_same (next_sibling (lk D)) (next_sibling (lk D'))).
    + exact (shows_chain (lk D) F n S).
    + exact (shows_chain (lk D') F' n S').
    + intros x Hx. apply (ab_next _ _ B). rewrite C in Hx. apply in_map_iff in Hx. destruct Hx as (c & <- & Hx). now apply Hc.
    + rewrite <- (sh_first _ _ S), <- (sh_first _ _ S'). now apply (ab_first _ _ B).
  - rewrite Forall_forall in IH, Tl |- *. intros c Hx. apply IH; [exact Hx|now apply Tl|now apply Hc].
Qed.
Lemma before_same D D' t : reachable D -> as_before D D' -> (forall x, In x (preorder t) -> exists_node D x) -> same_tree D D' t t.
Proof.
  intros H B. induction t as [n ts IH] using tree_ind'. intros Hf.
  assert (Hn : exists_node D n) by (apply Hf; now left).
  constructor; [symmetry; now apply (ab_type _ _ B)|symmetry; now apply (ab_tag _ _ B)|symmetry; now apply (ab_id _ _ B)|
    symmetry; now apply (ab_text _ _ B)| |].
  - rewrite (ab_attrs _ _ B n Hn). assert (Q : forall a, In a (attributes D n) -> same_value D D' (a_value a) (a_value a)).
    { intros a Ha. destruct (link_target (a_value a)) as [t|] eqn:Et; [|now constructor].
      assert (Ht : exists_node D t) by (destruct (reachable_inv D H) as (F & J & _); apply (target_exists D F n t J); apply count_links_pos; now exists a). pose proof (eq_sym (ab_id _ _ B t Ht)) as E.
      destruct (a_value a); cbn in Et; try discriminate; injection Et as ->; now constructor. }
    induction (attributes D n) as [|a l IHl]; constructor; [split; [reflexivity|apply Q; now left]|apply IHl; intros b Hb; apply Q; now right].
  - induction ts as [|c ts IHts]; constructor.
    + inversion IH; subst. apply H2. intros x Hx. apply Hf. cbn [preorder flat_map]. right. apply in_or_app. now left.
    + inversion IH; subst. apply IHts; [assumption|]. intros x Hx. apply Hf. cbn [preorder flat_map] in *. destruct Hx as [->|Hx]; [now left|].
      right. apply in_or_app. now right.
Qed.
Lemma before_written W D D' : reachable D -> reachable D' -> acyclic_dom D -> as_before D D' -> write_dom W D' = write_dom W D.
Proof.
  intros H H' A B. destruct (reachable_shows D H) as (F & S). destruct (reachable_shows D' H') as (F' & S').
  pose proof (shows_inv D F H S) as J.
  destruct (tree_exists F (droot D) (sh_wf _ _ S) (shows_acyclic D F H A S)) as ([n ts] & E & Ht). cbn [t_node] in E. subst n.
  pose proof (before_tree D D' F F' _ H S S' B Ht (iv_rlt D F J)) as Ht'.
  pose proof (before_same D D' (T (droot D) ts) H B (tree_below D F _ J Ht (iv_rlt D F J))) as St.
  pose proof (ab_root _ _ B) as Er. rewrite <- Er in Ht' at 1. symmetry.
  apply (same_written W D D' F F' ts ts H H' S S' Ht); [exact Ht'|]. now rewrite Er.
Qed.

(* ---- other ways to write numbers *)
Definition res_form (r r' : res (list event)) : Prop :=
  match r, r' with Ok e, Ok e' => Forall2 same_form e e' | Panic p, Panic q => p = q | Diverge, Diverge => True | _, _ => False end.
Lemma form_refl l : Forall2 same_form l l.
Proof. induction l; constructor; [constructor|assumption]. Qed.
Lemma res_form_refl r : res_form r r.
Proof. destruct r; cbn; [apply form_refl|reflexivity|exact Logic.I]. Qed.
Lemma flat_form {A} (f g : A -> res (list event)) l : (forall x, res_form (f x) (g x)) -> res_form (flat_res f l) (flat_res g l).
Proof.
  intros H. induction l as [|x l IH]; [constructor|]. rewrite !flat_step. specialize (H x).
  destruct (f x), (g x); cbn in H |- *; try contradiction; try assumption. destruct (flat_res f l), (flat_res g l); cbn in IH |- *; try contradiction; try assumption.
  now apply Forall2_app.
Qed.
Lemma options_form W W' D : res_form (write_dom W D) (write_dom W' D).
Proof.
  unfold write_dom. destruct (traverse_collect _ _ _) as [l| |]; [|cbn; reflexivity|exact Logic.I]. cbn [bind]. apply flat_form.
  intros [n|n]; cbn [write_edge]; [|apply res_form_refl]. destruct (node_type D n); try apply res_form_refl.
  destruct (tag_str (tag_name D n)); [|cbn; reflexivity|exact Logic.I]. cbn [bind]. unfold write_attributes.
  destruct (write_namespaces D n); [|cbn; reflexivity|exact Logic.I]. cbn [bind].
  set (ids := sort_by _ _).
  assert (X : res_form (flat_res (write_svg_attr W D (attributes D n)) ids) (flat_res (write_svg_attr W' D (attributes D n)) ids)).
  { apply flat_form. intros x. unfold write_svg_attr. destruct (attrs_get _ _) as [b|]; [|cbn; reflexivity]. cbn [unwrap bind].
    destruct (attr_id_str _); [|cbn; reflexivity|exact Logic.I]. cbn [bind]. destruct (aid_eqb _ _); [apply res_form_refl|].
    cbn. constructor; constructor. }
  destruct (flat_res (write_svg_attr W D _) ids), (flat_res (write_svg_attr W' D _) ids); cbn in X; try contradiction; cbn [bind]; cbn; try assumption.
  constructor; [constructor|]. apply Forall2_app; [|apply form_refl]. apply Forall2_app; [apply form_refl|]. apply Forall2_app; [apply form_refl|].
  apply Forall2_app; [exact X|]. clear X. induction (attributes D n) as [|b m IH]; [constructor|]. cbn [flat_map]. apply Forall2_app; [|exact IH].
  unfold write_custom_attr. destruct (a_name b); constructor; constructor.
Qed.
Lemma fixed_value W W' D v : fixed_text v -> write_value W D v = write_value W' D v.
Proof. destruct v; try (cbn; intros H; first [contradiction|reflexivity]). destruct f as [[]|]; cbn; intros H; first [contradiction|reflexivity]. Qed.
Lemma options_equal W W' D : (forall n a, In a (attributes D n) -> fixed_text (a_value a)) -> write_dom W D = write_dom W' D.
Proof.
  intros H. unfold write_dom. destruct (traverse_collect _ _ _) as [l| |]; [|reflexivity|reflexivity]. cbn [bind]. apply flat_res_ext.
  intros [n|n]; cbn [write_edge]; [|reflexivity]. destruct (node_type D n); try reflexivity.
  destruct (tag_str (tag_name D n)); [|reflexivity|reflexivity]. cbn [bind]. unfold write_attributes.
  destruct (write_namespaces D n); [|reflexivity|reflexivity]. cbn [bind].
  assert (Cu : forall m, (forall b, In b m -> fixed_text (a_value b)) -> flat_map (write_custom_attr W D) m = flat_map (write_custom_attr W' D) m).
  { induction m as [|b m IH]; intros Fx; [reflexivity|]. cbn [flat_map]. rewrite IH by (intros c Hc; apply Fx; now right). f_equal.
    unfold write_custom_attr. destruct (a_name b); [reflexivity|]. now rewrite (fixed_value W W' D (a_value b) (Fx b (or_introl eq_refl))). }
  pose proof (Cu (attributes D n) (H n)) as Cu'.
  assert (Gt : forall x b, attrs_get (attributes D n) x = Some b -> In b (attributes D n)).
  { intros x b. clear Cu'. induction (attributes D n) as [|c m IH]; [discriminate|]. cbn [attrs_get]. destruct (aname_eqb _ _); [intros [= ->]; now left|].
    intros E. right. exact (IH E). }
  erewrite (flat_res_ext (write_svg_attr W D (attributes D n)) (write_svg_attr W' D (attributes D n))).
  - destruct (flat_res _ _); [|reflexivity|reflexivity]. cbn [bind]. rewrite Cu'. reflexivity.
  - intros x. unfold write_svg_attr. destruct (attrs_get (attributes D n) (snd x)) as [b|] eqn:Eb; [|reflexivity]. cbn [unwrap bind].
    destruct (attr_id_str (fst x)); [|reflexivity|reflexivity]. cbn [bind]. destruct (aid_eqb _ _); [reflexivity|].
    now rewrite (fixed_value W W' D (a_value b) (H n b (Gt _ _ Eb))).
Qed.
