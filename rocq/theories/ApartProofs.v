(* Calls that concern different things can change places. *)
From Coq Require Import List Bool PeanoNat NArith Lia Sorting.Permutation.
From Verif Require Import Base Ids Links Tree ForestSpec ListFacts Data Attrs Slab NodeApi Doc AttrSpec AttrFacts LinkProofs DocSpec History InvProofs
  HistoryProofs TreeSpec TreeApi ApiProofs UndoSpec UndoProofs ApartSpec.
Import ListNotations.

(* ---- moving nodes and changing their contents *)
Lemma has_attribute_lk L D n x : has_attribute (with_lk L D) n x = has_attribute D n x.
Proof. reflexivity. Qed.
Definition on_res (L : links) (r : res dom) : res dom := D <- r ;; Ok (with_lk L D).
Lemma remove_attribute_lk L D n x : remove_attribute n x (with_lk L D) = on_res L (remove_attribute n x D).
Proof.
  unfold remove_attribute, on_res. rewrite has_attribute_lk. destruct (negb (has_attribute D n x)); [reflexivity|].
  change (attributes (with_lk L D) n) with (attributes D n). destruct (attrs_get_value (attributes D n) x) as [v|]; [|reflexivity].
  destruct (link_target v) as [t|]; [|reflexivity]. change (linked_nodes (with_lk L D) t) with (linked_nodes D t).
  destruct (position _ _); [|reflexivity]. unfold borrow_mut. destruct (mem t [n]); reflexivity.
Qed.
Lemma checked_lk L D n a : set_attribute_checked n a (with_lk L D) = (r <- set_attribute_checked n a D ;; Ok (with_lk L (fst r), snd r)).
Proof.
  unfold set_attribute_checked. change (is_element (with_lk L D) n) with (is_element D n). destruct (negb (is_element D n)); [reflexivity|].
  assert (S : forall v, (D0 <- set_simple_attribute n v (with_lk L D) ;; Ok (D0, ROk)) =
    (r <- (D0 <- set_simple_attribute n v D ;; Ok (D0, ROk)) ;; Ok (with_lk L (fst r), snd r))).
  { intros v. unfold set_simple_attribute. destruct (is_link_container (a_value v)); [reflexivity|]. rewrite remove_attribute_lk. unfold on_res.
    now destruct (remove_attribute n (a_name v) D). }
  assert (K : forall t fb, set_link_attribute n (a_name a) t fb (with_lk L D) =
    (r <- set_link_attribute n (a_name a) t fb D ;; Ok (with_lk L (fst r), snd r))).
  { intros t fb. unfold set_link_attribute. change (has_id (with_lk L D) t) with (has_id D t). destruct (negb (has_id D t)); [reflexivity|].
    change (id_of (with_lk L D) ?x) with (id_of D x).
    change (str_eqb (id_of (with_lk L D) n) (id_of (with_lk L D) t)) with (str_eqb (id_of D n) (id_of D t)).
    destruct (str_eqb (id_of D n) (id_of D t)); [reflexivity|]. change (linked_nodes (with_lk L D) n) with (linked_nodes D n).
    destruct (existsb _ _); [reflexivity|]. rewrite remove_attribute_lk. unfold on_res. now destruct (remove_attribute n (a_name a) D). }
  destruct (a_value a); auto.
Qed.
Lemma set_attribute_lk L D n a : set_attribute n a (with_lk L D) = on_res L (set_attribute n a D).
Proof.
  unfold set_attribute. rewrite checked_lk. destruct (set_attribute_checked n a D) as [[D1 [|e]]| |]; reflexivity.
Qed.
Lemma content_lk L D o n : changes o = Some n -> step o (with_lk L D) = on_res L (step o D).
Proof.
  destruct o; cbn [changes step]; intros H; try discriminate H; injection H as ->.
  - unfold set_text. change (is_element (with_lk L D) n) with (is_element D n). now destruct (is_element D n).
  - reflexivity.
  - unfold set_id. change (is_element (with_lk L D) n) with (is_element D n). now destruct (is_element D n).
  - unfold set_tag_name. change (is_element (with_lk L D) n) with (is_element D n). destruct (negb (is_element D n)); [reflexivity|].
    now destruct (empty_tag t).
  - apply set_attribute_lk.
  - rewrite checked_lk. now destruct (set_attribute_checked n a D).
  - unfold set_attribute_if_none. rewrite has_attribute_lk. destruct (negb (has_attribute D n (a_name a))); [apply set_attribute_lk|reflexivity].
  - apply remove_attribute_lk.
  - reflexivity.
Qed.
Lemma remove_attribute_keeps D n x D' : remove_attribute n x D = Ok D' -> lk D' = lk D.
Proof.
  unfold remove_attribute. destruct (negb (has_attribute D n x)); [now intros [= <-]|].
  destruct (attrs_get_value (attributes D n) x) as [v|]; [|now intros [= <-]].
  destruct (link_target v) as [t|]; [|now intros [= <-]].
  destruct (position _ _); [|discriminate]. unfold borrow_mut. destruct (mem t [n]); [discriminate|]. now intros [= <-].
Qed.
Lemma checked_keeps D n a r : set_attribute_checked n a D = Ok r -> lk (fst r) = lk D.
Proof.
  unfold set_attribute_checked. destruct (negb (is_element D n)); [discriminate|].
  assert (S : forall v, (D0 <- set_simple_attribute n v D ;; Ok (D0, ROk)) = Ok r -> lk (fst r) = lk D).
  { intros v. unfold set_simple_attribute. destruct (is_link_container (a_value v)); [discriminate|].
    destruct (remove_attribute n (a_name v) D) as [D1| |] eqn:E; try discriminate. intros [= <-]. exact (remove_attribute_keeps D n _ D1 E). }
  assert (K : forall t fb, set_link_attribute n (a_name a) t fb D = Ok r -> lk (fst r) = lk D).
  { intros t fb. unfold set_link_attribute. destruct (negb (has_id D t)); [now intros [= <-]|].
    destruct (str_eqb (id_of D n) (id_of D t)); [now intros [= <-]|]. destruct (existsb _ _); [now intros [= <-]|].
    destruct (remove_attribute n (a_name a) D) as [D1| |] eqn:E; try discriminate. intros [= <-]. exact (remove_attribute_keeps D n _ D1 E). }
  destruct (a_value a); eauto.
Qed.
Lemma set_keeps D n a D' : set_attribute n a D = Ok D' -> lk D' = lk D.
Proof.
  unfold set_attribute. destruct (set_attribute_checked n a D) as [[D1 [|e]]| |] eqn:E; try discriminate. intros [= <-].
  exact (checked_keeps D n a _ E).
Qed.
Lemma content_keeps D o n D' : changes o = Some n -> step o D = Ok D' -> lk D' = lk D.
Proof.
  destruct o; cbn [changes step]; intros H; try discriminate H; injection H as ->; intros E.
  - unfold set_text in E. destruct (is_element D n); [discriminate|]. now injection E as <-.
  - now injection E as <-.
  - unfold set_id in E. destruct (is_element D n); [|discriminate]. now injection E as <-.
  - unfold set_tag_name in E. destruct (negb (is_element D n)); [discriminate|]. destruct (empty_tag t); [discriminate|]. now injection E as <-.
  - exact (set_keeps D n a D' E).
  - destruct (set_attribute_checked n a D) as [r| |] eqn:Er; try discriminate. injection E as <-. exact (checked_keeps D n a r Er).
  - unfold set_attribute_if_none in E. destruct (negb _); [exact (set_keeps D n a D' E)|now injection E as <-].
  - exact (remove_attribute_keeps D n name D' E).
  - now injection E as <-.
Qed.
Lemma moves_links o : moves o -> exists f, forall D, step o D = on_links f D.
Proof. destruct o; cbn [moves]; intros []; cbn [step]; eexists; intros D; reflexivity. Qed.
Lemma move_and_change D o1 o2 n D' : moves o1 -> changes o2 = Some n ->
  both_calls o1 o2 D = Ok D' <-> both_calls o2 o1 D = Ok D'.
Proof.
  intros M C. destruct (moves_links o1 M) as (f & Hf). unfold both_calls. rewrite Hf. unfold on_links.
  split; intros H.
  - destruct (f (lk D)) as [L| |] eqn:EL; try discriminate. cbn [bind] in H. rewrite (content_lk L D o2 n C) in H. unfold on_res in H.
    destruct (step o2 D) as [D2| |] eqn:E2; try discriminate. cbn [bind] in *. rewrite Hf. unfold on_links.
    rewrite (content_keeps D o2 n D2 C E2), EL. exact H.
  - destruct (step o2 D) as [D2| |] eqn:E2; try discriminate. cbn [bind] in H. rewrite Hf in H. unfold on_links in H.
    rewrite (content_keeps D o2 n D2 C E2) in H. destruct (f (lk D)) as [L| |]; try discriminate. cbn [bind] in *.
    rewrite (content_lk L D o2 n C). unfold on_res. rewrite E2. exact H.
Qed.

(* ---- contents of different nodes *)
Record looks (n : nid) (D E : dom) : Prop := {
  lo_type : node_type E n = node_type D n; lo_tag : tag_name E n = tag_name D n; lo_id : id_of E n = id_of D n;
  lo_text : text_of E n = text_of D n; lo_attrs : attributes E n = attributes D n }.
Lemma looks_refl n D : looks n D D. Proof. now split. Qed.
Lemma looks_sym n D E : looks n D E -> looks n E D. Proof. intros []. split; congruence. Qed.
Lemma looks_trans n D E G : looks n D E -> looks n E G -> looks n D G. Proof. intros [] []. split; congruence. Qed.
Lemma looks_element n D E : looks n D E -> is_element E n = is_element D n.
Proof. intros L. unfold is_element. now rewrite (lo_type _ _ _ L). Qed.
Lemma looks_has n D E x : looks n D E -> has_attribute E n x = has_attribute D n x.
Proof. intros L. unfold has_attribute. now rewrite (lo_attrs _ _ _ L). Qed.

(* What a call keeps. *)
Record kept (n : nid) (D D' : dom) : Prop := {
  ke_lk : lk D' = lk D; ke_root : droot D' = droot D; ke_fresh : fresh D' = fresh D;
  ke_key : forall x, storage_key D' x = storage_key D x;
  ke_looks : forall x, x <> n -> looks x D D' }.
Lemma kept_same n D : kept n D D.
Proof. split; try reflexivity. intros; apply looks_refl. Qed.
Lemma kept_nodes n D D' : same_nodes D D' -> (forall m, m <> n -> attributes D' m = attributes D m) -> kept n D D'.
Proof. intros [] A. split; auto. intros x Hx. split; auto. Qed.
Lemma kept_modify n f D : (forall d, d_key (f d) = d_key d) -> kept n D (modify n f D).
Proof.
  intros Hk. split; try reflexivity.
  - intros x. unfold storage_key, modify. cbn. rewrite upd_eq. destruct (Nat.eqb_spec x n) as [->|]; [apply Hk|reflexivity].
  - intros x Hx. unfold modify. split; unfold node_type, tag_name, id_of, text_of, attributes; cbn; rewrite upd_eq;
      destruct (Nat.eqb_spec x n); easy.
Qed.
Lemma refused_looks D E n a : looks n D E -> (forall t, link_target (a_value a) = Some t -> looks t D E) -> refused E n a = refused D n a.
Proof.
  intros L Lt. unfold refused. destruct (link_target (a_value a)) as [t|]; [|reflexivity]. specialize (Lt t eq_refl).
  unfold uses. now rewrite (lo_id _ _ _ L), (lo_id _ _ _ Lt), (lo_attrs _ _ _ Lt).
Qed.

Lemma set_both D E n a : reachable D -> reachable E -> looks n D E -> (forall t, link_target (a_value a) = Some t -> looks t D E) ->
  forall D', set_attribute n a D = Ok D' -> kept n D D' /\ exists E', set_attribute n a E = Ok E' /\ looks n D' E' /\ kept n E E'.
Proof.
  intros H HE L Lt D' Es.
  assert (He : is_element D n = true).
  { destruct (is_element D n) eqn:X; [reflexivity|]. unfold set_attribute, set_attribute_checked in Es. rewrite X in Es. discriminate. }
  pose proof (set_cases D n a H He) as C. pose proof (set_cases E n a HE) as C'. rewrite (looks_element n D E L) in C'. specialize (C' He).
  rewrite (refused_looks D E n a L Lt) in C'. destruct (refused D n a); [congruence|].
  destruct C as (D1 & E1 & N & A1 & A2). rewrite Es in E1. injection E1 as <-. destruct C' as (E' & E2 & N' & B1 & B2).
  split; [now apply kept_nodes|]. exists E'. split; [exact E2|]. split; [|now apply kept_nodes].
  destruct N, N', L. split; rewrite ?sn_type0, ?sn_type, ?sn_tag0, ?sn_tag, ?sn_id0, ?sn_id, ?sn_text0, ?sn_text, ?A1, ?B1; congruence.
Qed.

Lemma content_both D E o n : reachable D -> reachable E -> changes o = Some n ->
  looks n D E -> (forall t, links_to o = Some t -> looks t D E) ->
  forall D', step o D = Ok D' -> kept n D D' /\ exists E', step o E = Ok E' /\ looks n D' E' /\ kept n E E'.
Proof.
  intros H HE C L Lt D' Es.
  assert (Md : forall f, (forall d, d_key (f d) = d_key d) ->
    (forall d d', d_type d' = d_type d -> d_tag d' = d_tag d -> d_id d' = d_id d -> d_text d' = d_text d -> d_attrs d' = d_attrs d ->
       d_type (f d') = d_type (f d) /\ d_tag (f d') = d_tag (f d) /\ d_id (f d') = d_id (f d) /\ d_text (f d') = d_text (f d) /\
       d_attrs (f d') = d_attrs (f d)) ->
    kept n D (modify n f D) /\ exists E', Ok (modify n f E) = Ok E' /\ looks n (modify n f D) E' /\ kept n E E').
  { intros f K P. split; [now apply kept_modify|]. eexists. split; [reflexivity|]. split; [|now apply kept_modify].
    destruct (P (dt D n) (dt E n)) as (P1 & P2 & P3 & P4 & P5); try apply L.
    split; unfold node_type, tag_name, id_of, text_of, attributes, modify; cbn; rewrite !upd_eq, Nat.eqb_refl; assumption. }
  destruct o; cbn [changes step links_to] in *; try discriminate C; injection C as ->.
  - unfold set_text in *. rewrite (looks_element n D E L). destruct (is_element D n); [discriminate|]. injection Es as <-.
    apply Md; [reflexivity|]. intros [] []; cbn; intros; subst; auto 6.
  - injection Es as <-. apply Md; [reflexivity|]. intros [] []; cbn; intros; subst; auto 6.
  - unfold set_id in *. rewrite (looks_element n D E L). destruct (is_element D n); [|discriminate]. injection Es as <-.
    apply Md; [reflexivity|]. intros [] []; cbn; intros; subst; auto 6.
  - unfold set_tag_name in *. rewrite (looks_element n D E L). destruct (negb (is_element D n)); [discriminate|].
    destruct (empty_tag t); [discriminate|]. injection Es as <-. apply Md; [reflexivity|]. intros [] []; cbn; intros; subst; auto 6.
  - exact (set_both D E n a H HE L Lt D' Es).
  - assert (He : is_element D n = true).
    { destruct (is_element D n) eqn:X; [reflexivity|]. unfold set_attribute_checked in Es. rewrite X in Es. discriminate. }
    pose proof (checked_cases D n a H He) as Q. pose proof (checked_cases E n a HE) as Q'. rewrite (looks_element n D E L) in Q'. specialize (Q' He).
    rewrite (refused_looks D E n a L Lt) in Q'. destruct (refused D n a) as [e|].
    + rewrite Q in Es. injection Es as <-. split; [apply kept_same|]. exists E. rewrite Q'. split; [reflexivity|]. split; [exact L|apply kept_same].
    + destruct Q as (D1 & E1 & N & A1 & A2). rewrite E1 in Es. injection Es as <-. destruct Q' as (E' & E2 & N' & B1 & B2).
      split; [now apply kept_nodes|]. exists E'. rewrite E2. split; [reflexivity|]. split; [|now apply kept_nodes].
      destruct N, N', L. split; rewrite ?sn_type0, ?sn_type, ?sn_tag0, ?sn_tag, ?sn_id0, ?sn_id, ?sn_text0, ?sn_text, ?A1, ?B1; congruence.
  - unfold set_attribute_if_none in *. rewrite (looks_has n D E _ L). destruct (negb (has_attribute D n (a_name a))).
    + exact (set_both D E n a H HE L Lt D' Es).
    + injection Es as <-. split; [apply kept_same|]. exists E. split; [reflexivity|]. split; [exact L|apply kept_same].
  - destruct (remove_cases D n name H) as (D1 & E1 & N & A1 & A2). rewrite E1 in Es. injection Es as <-.
    destruct (remove_cases E n name HE) as (E' & E2 & N' & B1 & B2).
    split; [now apply kept_nodes|]. exists E'. split; [exact E2|]. split; [|now apply kept_nodes].
    destruct N, N', L. split; rewrite ?sn_type0, ?sn_type, ?sn_tag0, ?sn_tag, ?sn_id0, ?sn_id, ?sn_text0, ?sn_text, ?A1, ?B1; congruence.
  - injection Es as <-. unfold attribute_mut. apply Md; [reflexivity|]. intros [] []; cbn; intros; subst; auto 6.
Qed.

Lemma legal_kept D D' o n m : changes o = Some m -> m <> n -> kept n D D' -> legal o D -> legal o D'.
Proof.
  intros C Hm K (Hh & Hp). split.
  - intros x Hx. unfold exists_node. rewrite (ke_fresh _ _ _ K). now apply Hh.
  - destruct o; cbn [changes plain_edit] in *; try exact Logic.I. injection C as ->. unfold has_attribute in *.
    now rewrite (lo_attrs _ _ _ (ke_looks _ _ _ K m Hm)).
Qed.

Lemma apart_sym o1 o2 : apart o1 o2 -> apart o2 o1.
Proof. intros (n & m & H). exists m, n. intuition. Qed.

Lemma change_and_change D o1 o2 D12 : reachable D -> legal o1 D -> legal o2 D -> apart o1 o2 ->
  both_calls o1 o2 D = Ok D12 -> exists D21, both_calls o2 o1 D = Ok D21 /\ as_before D12 D21 /\ lk D21 = lk D12 /\ lk D12 = lk D.
Proof.
  intros H L1 L2 (n & m & C1 & C2 & Hnm & T1 & T2) E. unfold both_calls in *. destruct (step o1 D) as [D1| |] eqn:E1; try discriminate.
  cbn [bind] in E.
  assert (R1 : reachable D1) by exact (reach_step D o1 D1 H L1 E1).
  destruct (content_both D D o1 n H H C1 (looks_refl n D) (fun t _ => looks_refl t D) D1 E1) as (K1 & _).
  assert (L2' : legal o2 D1) by (apply (legal_kept D D1 o2 n m C2); auto).
  assert (R12 : reachable D12) by exact (reach_step D1 o2 D12 R1 L2' E).
  destruct (content_both D1 D o2 m R1 H C2) with (D' := D12) as (K12 & D2 & E2 & X2 & K2).
  - apply looks_sym, (ke_looks _ _ _ K1). auto.
  - intros t Ht. apply looks_sym, (ke_looks _ _ _ K1). intros ->. now apply T2.
  - exact E.
  - assert (R2 : reachable D2) by exact (reach_step D o2 D2 H L2 E2).
    destruct (content_both D D2 o1 n H R2 C1) with (D' := D1) as (_ & D21 & E21 & X21 & K21).
    + apply (ke_looks _ _ _ K2). auto.
    + intros t Ht. apply (ke_looks _ _ _ K2). intros ->. now apply T1.
    + exact E1.
    + assert (L1' : legal o1 D2) by (apply (legal_kept D D2 o1 m n C1); auto).
      assert (R21 : reachable D21) by exact (reach_step D2 o1 D21 R2 L1' E21).
      exists D21. rewrite E2. cbn [bind]. split; [exact E21|].
      assert (X : forall x, looks x D12 D21).
      { intros x. destruct (Nat.eq_dec x n) as [->|Hx].
        - apply (looks_trans n D12 D1); [apply looks_sym, (ke_looks _ _ _ K12); auto|exact X21].
        - destruct (Nat.eq_dec x m) as [->|Hx'].
          + apply (looks_trans m D12 D2); [exact X2|]. apply (ke_looks _ _ _ K21). auto.
          + apply (looks_trans x D12 D); [|apply (looks_trans x D D2); [now apply (ke_looks _ _ _ K2)|now apply (ke_looks _ _ _ K21)]].
            apply looks_sym, (looks_trans x D D1); [now apply (ke_looks _ _ _ K1)|now apply (ke_looks _ _ _ K12)]. }
      assert (EL : lk D21 = lk D12) by (rewrite (ke_lk _ _ _ K21), (ke_lk _ _ _ K2), (ke_lk _ _ _ K12), (ke_lk _ _ _ K1); reflexivity).
      split; [|split; [exact EL|now rewrite (ke_lk _ _ _ K12), (ke_lk _ _ _ K1)]].
      split; try (intros x _; now rewrite EL); try (intros x _; apply X).
      * now rewrite (ke_root _ _ _ K21), (ke_root _ _ _ K2), (ke_root _ _ _ K12), (ke_root _ _ _ K1).
      * intros x _. apply users_of_attributes; [exact R12|exact R21|]. intros y. apply X.
      * intros x _. unfold is_detached. now rewrite (ke_key _ _ _ K21), (ke_key _ _ _ K2), (ke_key _ _ _ K12), (ke_key _ _ _ K1).
Qed.

Lemma same_answer D o n a m D' : reachable D -> legal o D -> changes o = Some m -> m <> n -> link_target (a_value a) <> Some m ->
  step o D = Ok D' -> refused D' n a = refused D n a.
Proof.
  intros H Lg C Hm Ht E. destruct (content_both D D o m H H C (looks_refl m D) (fun t _ => looks_refl t D) D' E) as (K & _).
  apply refused_looks; [apply (ke_looks _ _ _ K); auto|]. intros t Et. apply (ke_looks _ _ _ K). intros ->. now apply Ht.
Qed.
