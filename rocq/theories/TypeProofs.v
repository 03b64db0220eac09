(* Proofs about attribute and element classes: finite checks over all ids, lifted. *)
From Coq Require Import List Bool NArith String.
From Verif Require Import Base Ids NameTables Names Data Attrs NodeApi Doc History AttrFacts InvProofs HistoryProofs
  NamesProofs Types TypeSpec.
Import ListNotations.

Definition named (names : list string) (r : res str) : bool :=
  match r with Ok s => existsb (fun x => str_eqb (lit x) s) names | _ => false end.
Lemma named_iff names r : named names r = true <-> exists x, In x names /\ r = Ok (lit x).
Proof.
  unfold named. destruct r as [s| |].
  - rewrite existsb_exists. split; intros (x & Hx & E); exists x; (split; [easy|]).
    + apply str_eqb_eq in E. now subst.
    + injection E as ->. now apply str_eqb_eq.
  - split; [easy|]. now intros (x & _ & E).
  - split; [easy|]. now intros (x & _ & E).
Qed.

Definition same_class {V} (f : V -> bool) (as_str : V -> res str) (names : list string) (v : V) : bool :=
  Bool.eqb (f v) (named names (as_str v)).
Lemma same_class_iff {V} (f : V -> bool) as_str names v : same_class f as_str names v = true ->
  f v = true <-> exists x, In x names /\ as_str v = Ok (lit x).
Proof. unfold same_class. intros H. apply Bool.eqb_prop in H. rewrite H. apply named_iff. Qed.

Definition attr_classes : list ((aid -> bool) * list string) :=
  [ (is_presentation, presentation_names); (is_non_inheritable, non_inherited_names);
    (is_animation_event, animation_event_names); (is_graphical_event, graphical_event_names);
    (is_document_event, document_event_names); (is_conditional_processing, conditional_names);
    (is_core, core_names); (is_fill, fill_names); (is_stroke, stroke_names) ].
Definition elem_classes : list ((eid -> bool) * list string) :=
  [ (eid_is_referenced, referenced_names); (eid_is_basic_shape, basic_shape_names); (eid_is_shape, shape_names);
    (eid_is_container, container_names); (eid_is_text_content, text_content_names);
    (eid_is_text_content_child, text_content_child_names); (eid_is_graphic, graphic_names);
    (eid_is_gradient, gradient_names); (eid_is_paint_server, paint_server_names);
    (eid_is_filter_primitive, filter_primitive_names) ].

Lemma attr_all : forallb (fun c => forallb (same_class (fst c) attribute_as_str (snd c)) all_aids) attr_classes = true.
Proof. vm_compute. reflexivity. Qed.
Lemma elem_all : forallb (fun c => forallb (same_class (fst c) element_as_str (snd c)) all_eids) elem_classes = true.
Proof. vm_compute. reflexivity. Qed.

Lemma attr_class f names : In (f, names) attr_classes -> forall a,
  f a = true <-> exists x, In x names /\ attribute_as_str a = Ok (lit x).
Proof.
  intros H a. pose proof attr_all as A. rewrite forallb_forall in A. specialize (A _ H). cbn [fst snd] in A.
  rewrite forallb_forall in A. apply same_class_iff. apply A, all_aids_complete.
Qed.
Lemma elem_class f names : In (f, names) elem_classes -> forall e,
  f e = true <-> exists x, In x names /\ element_as_str e = Ok (lit x).
Proof.
  intros H e. pose proof elem_all as A. rewrite forallb_forall in A. specialize (A _ H). cbn [fst snd] in A.
  rewrite forallb_forall in A. apply same_class_iff. apply A, all_eids_complete.
Qed.

Definition implies (a b : bool) : bool := negb a || b.
Lemma implies_ok a b : implies a b = true -> a = true -> b = true.
Proof. now destruct a, b. Qed.
Definition has_default (a : aid) : bool := match default_value a with Some _ => true | None => false end.

Lemma attr_consistent a :
  (is_inheritable a = true <-> is_presentation a = true /\ is_non_inheritable a = false) /\
  (is_non_inheritable a = true -> is_presentation a = true) /\
  (is_fill a = true -> is_presentation a = true) /\ (is_stroke a = true -> is_presentation a = true) /\
  ((exists v, default_value a = Some v) -> is_presentation a = true) /\
  (is_presentation a = true -> is_animation_event a = false /\ is_graphical_event a = false /\
     is_document_event a = false /\ is_conditional_processing a = false /\ is_core a = false).
Proof.
  assert (H : forallb (fun a => implies (is_non_inheritable a) (is_presentation a) &&
      implies (is_fill a) (is_presentation a) && implies (is_stroke a) (is_presentation a) &&
      implies (has_default a) (is_presentation a) &&
      implies (is_presentation a) (negb (is_animation_event a || is_graphical_event a || is_document_event a ||
        is_conditional_processing a || is_core a))) all_aids = true) by (vm_compute; reflexivity).
  rewrite forallb_forall in H. specialize (H a (all_aids_complete a)).
  apply andb_true_iff in H. destruct H as (H & H5). apply andb_true_iff in H. destruct H as (H & H4).
  apply andb_true_iff in H. destruct H as (H & H3). apply andb_true_iff in H. destruct H as (H1 & H2).
  split; [|split; [|split; [|split; [|split]]]].
  - unfold is_inheritable. destruct (is_presentation a), (is_non_inheritable a); cbn; intuition congruence.
  - now apply implies_ok.
  - now apply implies_ok.
  - now apply implies_ok.
  - intros (v & E). apply (implies_ok _ _ H4). unfold has_default. now rewrite E.
  - intros P. apply (implies_ok _ _ H5) in P. apply negb_true_iff in P.
    repeat (apply orb_false_elim in P; destruct P as (P & ?)). repeat split; assumption.
Qed.

Lemma elem_consistent e :
  (eid_is_basic_shape e = true -> eid_is_shape e = true) /\ (eid_is_shape e = true -> eid_is_graphic e = true) /\
  (eid_is_gradient e = true -> eid_is_paint_server e = true) /\
  (eid_is_paint_server e = true -> eid_is_referenced e = true) /\
  (eid_is_text_content_child e = true -> eid_is_text_content e = true).
Proof.
  assert (H : forallb (fun e => implies (eid_is_basic_shape e) (eid_is_shape e) &&
     implies (eid_is_shape e) (eid_is_graphic e) && implies (eid_is_gradient e) (eid_is_paint_server e) &&
     implies (eid_is_paint_server e) (eid_is_referenced e) &&
     implies (eid_is_text_content_child e) (eid_is_text_content e)) all_eids = true) by (vm_compute; reflexivity).
  rewrite forallb_forall in H. specialize (H e (all_eids_complete e)).
  apply andb_true_iff in H. destruct H as (H & H5). apply andb_true_iff in H. destruct H as (H & H4).
  apply andb_true_iff in H. destruct H as (H & H3). apply andb_true_iff in H. destruct H as (H1 & H2).
  repeat split; now apply implies_ok.
Qed.

(* the class of a node *)
Lemma node_class D n f : reachable D ->
  of_node f D n = true <-> is_element D n = true /\ exists e, tag_name D n = QId e /\ f e = true.
Proof.
  intros H. destruct (reachable_inv D H) as (F & I & _). unfold of_node, tag_id.
  split.
  - destruct (tag_name D n) as [e|s] eqn:E; [|easy]. intros Hf. split; [|now exists e].
    destruct (is_element D n) eqn:Ee; [easy|]. destruct (iv_plain D F I n Ee) as (_ & Et & _). congruence.
  - intros (_ & e & -> & Hf). exact Hf.
Qed.
Lemma attr_class_of f a : of_attr f a = true <-> exists id, a_name a = QId id /\ f id = true.
Proof.
  unfold of_attr. destruct (a_name a) as [id|s].
  - split; [intros H; now exists id|]. intros (i & E & H). congruence.
  - split; [easy|]. now intros (i & E & H).
Qed.

(* the methods *)
Ltac here := repeat (first [left; reflexivity | right]).
Lemma of_attr_names f names m : (forall a, f a = true <-> exists x, In x names /\ attribute_as_str a = Ok (lit x)) -> (forall a, m a = of_attr f a) ->
  forall a, m a = true <-> exists id x, a_name a = QId id /\ In x names /\ attribute_as_str id = Ok (lit x).
Proof.
  intros H E a. rewrite E, attr_class_of. split.
  - intros (id & H1 & H2). apply H in H2. destruct H2 as (x & H2). exists id, x. tauto.
  - intros (id & x & H1 & H2). exists id. split; [exact H1|]. apply H. now exists x.
Qed.
Lemma attr_methods m names :
  In (m, names)
    [ (attr_is_presentation, presentation_names); (attr_is_animation_event, animation_event_names);
      (attr_is_graphical_event, graphical_event_names); (attr_is_document_event, document_event_names);
      (attr_is_conditional_processing, conditional_names); (attr_is_core, core_names);
      (attr_is_fill, fill_names); (attr_is_stroke, stroke_names) ] ->
  forall a, m a = true <-> exists id x, a_name a = QId id /\ In x names /\ attribute_as_str id = Ok (lit x).
Proof.
  intros H. cbn [In] in H.
  repeat (destruct H as [H|H]; [injection H as <- <-; eapply of_attr_names; swap 1 2; [intros a; reflexivity|apply attr_class; cbn [In]; here]|]). easy.
Qed.
Lemma attr_inherits a : attr_is_inheritable a = true <-> exists id, a_name a = QId id /\
  (exists x, In x presentation_names /\ attribute_as_str id = Ok (lit x)) /\
  ~ (exists x, In x non_inherited_names /\ attribute_as_str id = Ok (lit x)).
Proof.
  unfold attr_is_inheritable. rewrite attr_class_of.
  assert (P : forall id, is_presentation id = true <-> exists x, In x presentation_names /\ attribute_as_str id = Ok (lit x))
    by (apply attr_class; cbn [In]; here).
  assert (N : forall id, is_non_inheritable id = true <-> exists x, In x non_inherited_names /\ attribute_as_str id = Ok (lit x))
    by (apply attr_class; cbn [In]; here).
  split; intros (id & H1 & H2); exists id; (split; [exact H1|]); rewrite <- P, <- N in *;
    pose proof (proj1 (attr_consistent id)) as C.
  - apply C in H2. split; [tauto|]. destruct H2 as (_ & ->). discriminate.
  - apply C. split; [tauto|]. destruct H2 as (_ & H2). now destruct (is_non_inheritable id).
Qed.
Lemma of_node_names D n f names : reachable D -> (forall e, f e = true <-> exists x, In x names /\ element_as_str e = Ok (lit x)) ->
  of_node f D n = true <-> is_element D n = true /\ exists e x, tag_name D n = QId e /\ In x names /\ element_as_str e = Ok (lit x).
Proof.
  intros R H. rewrite (node_class D n f R). split; intros (He & H1); (split; [exact He|]).
  - destruct H1 as (e & H1 & H2). apply H in H2. destruct H2 as (x & H2). exists e, x. tauto.
  - destruct H1 as (e & x & H1 & H2). exists e. split; [exact H1|]. apply H. now exists x.
Qed.
Lemma node_methods D n m names : reachable D ->
  In (m, names)
    [ (node_is_referenced, referenced_names); (node_is_basic_shape, basic_shape_names); (node_is_shape, shape_names);
      (node_is_container, container_names); (node_is_text_content, text_content_names);
      (node_is_text_content_child, text_content_child_names); (node_is_graphic, graphic_names);
      (node_is_gradient, gradient_names); (node_is_paint_server, paint_server_names);
      (node_is_filter_primitive, filter_primitive_names) ] ->
  m D n = true <-> is_element D n = true /\ exists e x, tag_name D n = QId e /\ In x names /\ element_as_str e = Ok (lit x).
Proof.
  intros R H. cbn [In] in H.
  repeat (destruct H as [H|H]; [injection H as <- <-; apply of_node_names; [exact R|apply elem_class; cbn [In]; here]|]). easy.
Qed.
