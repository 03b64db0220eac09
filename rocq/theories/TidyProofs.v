(* Histories that leave removed nodes alone and link with SVG names only: no link ever touches a
   removed node. *)
From Coq Require Import List Bool PeanoNat NArith Lia.
From Verif Require Import Base Ids Links Tree Iter ForestSpec ListFacts TreeProofs ForestFacts IterSpec IterProofs
  PruneFacts Data Attrs Slab SlabProofs NodeApi Doc AttrFacts LinkProofs DocSpec RemoveProofs History InvProofs
  HistoryProofs DrainProofs.
Import ListNotations.

Definition tidy (D : dom) : Prop := forall x a t, In a (attributes D x) -> link_target (a_value a) = Some t ->
  (exists id, a_name a = QId id) /\ storage_key D x <> None /\ storage_key D t <> None.

Lemma tidy_unlinked D : LInv D -> tidy D -> forall n, storage_key D n = None -> unlinked D n.
Proof.
  intros I T n Hn. split.
  - intros a Ha. destruct (link_target (a_value a)) as [t|] eqn:E; [|easy].
    destruct (T n a t Ha E) as (_ & H & _). congruence.
  - destruct (linked_nodes D n) as [|u l] eqn:El; [easy|]. exfalso.
    pose proof (li_sym D I u n) as Hs. rewrite El, count_occ_cons_eq in Hs by easy.
    assert (Hp : 0 < count_links n (attributes D u)) by lia. apply count_links_pos in Hp. destruct Hp as (a & Ha & Ht).
    destruct (T u a n Ha Ht) as (_ & _ & H). congruence.
Qed.

(* attributes shrink, nothing is removed from the storage *)
Lemma tidy_sub D D' : tidy D -> (forall x a, In a (attributes D' x) -> In a (attributes D x)) ->
  (forall x, storage_key D x <> None -> storage_key D' x <> None) -> tidy D'.
Proof.
  intros T Ha Hk x a t Hin Ht. destruct (T x a t (Ha x a Hin) Ht) as (H1 & H2 & H3). auto.
Qed.

Lemma tidy_removed S D D' : removed S D D' -> tidy D -> tidy D'.
Proof.
  intros R T x a t Hin Ht. rewrite (rv_attrs _ _ _ R) in Hin. apply filter_In in Hin. destruct Hin as (Hin & Hc).
  destruct (T x a t Hin Ht) as (H1 & H2 & H3). split; [easy|].
  destruct H1 as (id & Eid). unfold cut, svg_link in Hc. rewrite Eid, is_link_container_target, Ht in Hc. cbn in Hc.
  rewrite !(rv_key _ _ _ R). destruct (mem x S), (mem t S); easy.
Qed.

Lemma tidy_set D F self a r : InvF D F -> tidy D -> svg_named a -> storage_key D self <> None ->
  (forall t, link_target (a_value a) = Some t -> storage_key D t <> None) ->
  set_attribute_checked self a D = Ok r -> tidy (fst r).
Proof.
  intros I T Hsv Hst Htg H. destruct (is_element D self) eqn:He.
  2:{ unfold set_attribute_checked in H. rewrite He in H. easy. }
  pose proof (set_attribute_checked_spec self a D (iv_link D F I) He) as Hs.
  destruct (link_error D self a) as [e|] eqn:Ee.
  { rewrite Hs in H. now injection H as <-. }
  destruct Hs as (D' & E & Hf & Ha & Hl & HL). rewrite E in H. injection H as <-. cbn [fst].
  intros x b t Hin Ht. rewrite !(fr_key _ _ Hf). rewrite Ha in Hin. destruct (Nat.eqb_spec x self) as [->|]; [|now apply (T x b t)].
  apply in_app_iff in Hin. destruct Hin as [Hin|[<-|[]]].
  - apply in_drop_name in Hin. apply (T self b t); [apply Hin|easy].
  - rewrite stored_target in Ht. rewrite stored_name. split; [apply Hsv; congruence|]. split; [easy|]. now apply Htg.
Qed.

Lemma tidy_set' D F self a D' : InvF D F -> tidy D -> svg_named a -> storage_key D self <> None ->
  (forall t, link_target (a_value a) = Some t -> storage_key D t <> None) ->
  set_attribute self a D = Ok D' -> tidy D'.
Proof.
  intros I T Hsv Hst Htg H. unfold set_attribute in H. ok_bind H r E.
  pose proof (tidy_set D F self a r I T Hsv Hst Htg E). destruct r as [D1 []]; [|easy]. now injection H as <-.
Qed.

Lemma tidy_alloc D D' k ty tag s : tidy D -> (forall m, m < fresh D \/ attributes D m = []) ->
  (forall m t a, In a (attributes D m) -> link_target (a_value a) = Some t -> t < fresh D) ->
  (forall m, dt D' m = if Nat.eqb m (fresh D) then set_key (Some k) (new_data ty tag s) else dt D m) -> tidy D'.
Proof.
  intros T Hb Hlt Hd x a t Hin Ht.
  assert (Hold : forall m, m <> fresh D -> attributes D' m = attributes D m /\ storage_key D' m = storage_key D m).
  { intros m Hm. unfold attributes, storage_key. rewrite Hd. destruct (Nat.eqb_spec m (fresh D)); easy. }
  destruct (Nat.eq_dec x (fresh D)) as [->|Hx].
  - unfold attributes in Hin. rewrite Hd, Nat.eqb_refl in Hin. easy.
  - destruct (Hold x Hx) as (E1 & E2). rewrite E1 in Hin. rewrite E2.
    pose proof (Hlt x t a Hin Ht). destruct (Hold t) as (_ & ->); [lia|]. now apply (T x a t).
Qed.

Lemma targets_lt D F : InvF D F -> forall m t a, In a (attributes D m) -> link_target (a_value a) = Some t -> t < fresh D.
Proof. intros I m t a Ha Ht. apply (target_exists D F m t I). apply count_links_pos. now exists a. Qed.
Lemma attrs_lt D F : InvF D F -> forall m, m < fresh D \/ attributes D m = [].
Proof.
  intros I m. destruct (Nat.lt_ge_cases m (fresh D)) as [|H]; [now left|right].
  unfold attributes. now rewrite (iv_blank D F I m H).
Qed.

Lemma tidy_create_element D F t r : InvF D F -> tidy D -> create_element t D = Ok r -> tidy (snd r).
Proof.
  intros I T H. destruct (create_element_inv D F t r I H) as (_ & _ & _ & _ & _ & k & Hd).
  apply (tidy_alloc D (snd r) k NElement t []); eauto using targets_lt, attrs_lt.
Qed.
Lemma tidy_create_node D F ty s r : InvF D F -> tidy D -> create_node ty s D = Ok r -> tidy (snd r).
Proof.
  intros I T H. destruct (create_node_inv D F ty s r I H) as (_ & _ & _ & _ & _ & k & Hd).
  apply (tidy_alloc D (snd r) k ty (QName []) s); eauto using targets_lt, attrs_lt.
Qed.

Lemma tidy_copy_attrs src elem l : forall D D' F, InvF D F -> tidy D -> storage_key D elem <> None ->
  (forall a t, In a l -> link_target (a_value a) = Some t -> (exists id, a_name a = QId id) /\ storage_key D t <> None) ->
  copy_attrs src elem l D = Ok D' -> tidy D'.
Proof.
  induction l as [|a l IH]; intros D D' F I T Hk Hl H; cbn [copy_attrs] in H.
  - now injection H as <-.
  - ok_bind H D1 E. assert (E' : set_attribute elem a D = Ok D1).
    { destruct (link_target (a_value a)); [destruct (Nat.eqb n src && has_id D n); [easy|]|]; easy. }
    destruct (set_attribute_inv D F elem a D1 I E') as (I1 & Hf).
    apply (IH D1 D' F I1); [| | |easy].
    + apply (tidy_set' D F elem a D1 I T); [|easy| |easy].
      * intros Hne. destruct (link_target (a_value a)) as [t|] eqn:Et; [|easy]. now apply (Hl a t (or_introl eq_refl)).
      * intros t Ht. now apply (Hl a t (or_introl eq_refl)).
    + now rewrite (fr_key _ _ Hf).
    + intros b t Hb Ht. rewrite (fr_key _ _ Hf). apply (Hl b t); [now right|easy].
Qed.

Lemma tidy_copy_node n D F r : InvF D F -> tidy D -> copy_node n D = Ok r -> tidy (snd r).
Proof.
  intros I T H. unfold copy_node in H. destruct (node_type D n).
  1,3,4: now apply (tidy_create_node D F _ _ r I T) in H.
  ok_bind H r1 E1. pose proof (tidy_create_element D F _ r1 I T E1) as T1.
  destruct (create_element_inv D F _ r1 I E1) as (Hn & I1 & Hl & Hf & Hr & k & Hd).
  ok_bind H D2 E2. injection H as <-. cbn [snd].
  assert (Hold : forall x, x < fresh D -> dt (snd r1) x = dt D x).
  { intros x Hx. rewrite Hd. destruct (Nat.eqb_spec x (fresh D)); [lia|easy]. }
  apply (tidy_copy_attrs n (fst r1) (attributes D n) (snd r1) D2 F I1 T1); [| |easy].
  - unfold storage_key. rewrite Hd, Hn, Nat.eqb_refl. easy.
  - intros a t Ha Ht. destruct (T n a t Ha Ht) as (H1 & H2 & H3). split; [easy|].
    unfold storage_key. rewrite Hold; [easy|]. now apply (targets_lt D F I n t a).
Qed.

Lemma tidy_deep fuel : forall p n D D', Inv True D -> tidy D -> p < fresh D -> make_deep_copy fuel p n D = Ok D' ->
  tidy D'.
Proof.
  induction fuel as [|fuel IH]; intros p n D D' I T Hp H; [easy|]. cbn [make_deep_copy] in H.
  assert (HH : Inv True D' /\ tidy D' /\ fresh D <= fresh D'); [|tauto].
  eapply (for_children_inv lk (fun X => Inv True X /\ tidy X /\ fresh D <= fresh X)); [|split;[exact I|split;[exact T|apply le_n]]|exact H].
  intros c s s' ((F & Is & HA) & Ts & Hle) Hb. cbv beta in Hb.
  ok_bind Hb r E. destruct (copy_node_inv c s F r Is E) as (Hn & I1 & Hl & Hf & Hr).
  pose proof (tidy_copy_node c s F r Is Ts E) as T1.
  ok_bind Hb L' E2.
  assert (I2 : InvF (with_lk L' (snd r)) (f_append p (fst r) F)).
  { apply append_inv; [easy|lia|lia|easy]. }
  assert (HA2 : True -> acyclic (f_append p (fst r) F)).
  { intros a. apply acyclic_append; [apply Is|auto|]. intros Hanc.
    apply iso_anc in Hanc; [|apply Is|apply (iv_iso s F Is); lia]. lia. }
  assert (I3 : Inv True (with_lk L' (snd r))) by now exists (f_append p (fst r) F).
  destruct (has_children _ c).
  - assert (Hlt : fst r < fresh (with_lk L' (snd r))) by (cbn; lia).
    pose proof (deep_copy_inv True _ _ _ _ _ I3 Hlt Hb) as (I4 & Hle4 & _). cbn in Hle4.
    apply IH in Hb; [|easy|exact T1|cbn; lia]. split; [easy|]. split; [easy|lia].
  - injection Hb as <-. split; [easy|]. split; [exact T1|cbn; lia].
Qed.

Lemma remove_tidy D n D' : Inv True D -> tidy D -> n < fresh D -> remove_node n D = Ok D' ->
  Inv True D' /\ tidy D' /\ fresh D' = fresh D.
Proof.
  intros (F & I & HA) T Hn H. destruct (tree_exists F n) as (t & Et & Ht); [apply I|now apply HA|].
  destruct (remove_node_spec D F t I Ht) as (D1 & E & I1 & R); [now rewrite Et|].
  rewrite Et, H in E. injection E as <-. split; [exists (f_prune (preorder t) F); split; [easy|]; intros; now apply acyclic_prune, HA|].
  split; [now apply (tidy_removed _ D D' R)|apply R].
Qed.

Lemma next_lt D n m : Inv True D -> n < fresh D -> next_sibling (lk D) n = Some m -> m < fresh D.
Proof.
  intros (F & I & _) Hn H. unfold next_sibling in H. rewrite (r_next _ _ (iv_rep D F I)) in H.
  destruct (succ_in_In _ _ _ H) as (_ & Hin). destruct (Nat.lt_ge_cases m (fresh D)) as [|Hm]; [easy|].
  destruct (iv_iso D F I m Hm) as (_ & Hs & _). destruct (wf_share F (r_wf _ _ (iv_rep D F I)) n m Hin) as (E & _).
  pose proof (wf_self F (r_wf _ _ (iv_rep D F I)) n) as Hself. rewrite <- E, Hs in Hself. destruct Hself as [->|[]]. lia.
Qed.
Lemma first_lt D n m : Inv True D -> first_child (lk D) n = Some m -> m < fresh D.
Proof.
  intros (F & I & _) H. unfold first_child in H. rewrite (r_first _ _ (iv_rep D F I)) in H.
  pose proof (r_wf _ _ (iv_rep D F I)) as W. apply (iso_no_parent D F m n I). apply (wf_child F W).
  destruct (children_of F n); [easy|]. injection H as ->. now left.
Qed.

Lemma drain_tidy f fuel : forall n s s', Inv True (fst s) -> tidy (fst s) -> (forall m, n = Some m -> m < fresh (fst s)) ->
  drain_loop fuel f n s = Ok s' -> Inv True (fst s') /\ tidy (fst s') /\ fresh (fst s') = fresh (fst s).
Proof.
  induction fuel as [|fuel IH]; intros n [D k] s' I T Hn H; [easy|]. cbn [drain_loop fst snd] in H, I, T, Hn.
  destruct n as [n|]; [|injection H as <-; easy]. specialize (Hn n eq_refl).
  destruct (f D n).
  - ok_bind H D1 E. destruct (remove_tidy D n D1 I T Hn E) as (I1 & T1 & F1).
    apply (IH (next_sibling (lk D) n) (D1, S k) s' I1 T1) in H.
    2:{ cbn [fst]. intros m Hm. rewrite F1. now apply (next_lt D n m). }
    destruct H as (I2 & T2 & F2). cbn [fst] in *. split; [easy|]. split; [easy|congruence].
  - ok_bind H s1 E.
    assert (H1 : Inv True (fst s1) /\ tidy (fst s1) /\ fresh (fst s1) = fresh D).
    { destruct (has_children (lk D) n).
      - apply (IH _ (D, k) _ I T) in E; [easy|]. intros m Hm. exact (first_lt D _ m I Hm).
      - injection E as <-. easy. }
    destruct H1 as (I1 & T1 & F1). apply (IH _ s1 s' I1 T1) in H.
    2:{ intros m Hm. apply (next_lt (fst s1) n m I1); [lia|easy]. }
    destruct H as (I2 & T2 & F2). cbn. split; [easy|]. split; [easy|congruence].
Qed.

Theorem step_tidy o D D' : Inv True D -> tidy D -> legal o D -> orderly o D -> step o D = Ok D' -> tidy D'.
Proof.
  intros I T Hl (Hst & Hsv) H. pose proof I as (F & IF & HA).
  destruct Hl as (Hn & Hp). unfold exists_node in Hn.
  assert (Hdata : forall n g, (forall d, d_attrs (g d) = d_attrs d /\ d_key (g d) = d_key d) -> tidy (modify n g D)).
  { intros n g Hg. apply (tidy_sub D); [easy| |].
    - intros x a. unfold modify, attributes. cbn. rewrite upd_eq. destruct (Nat.eqb_spec x n) as [->|]; [|easy].
      now rewrite (proj1 (Hg _)).
    - intros x. unfold modify, storage_key. cbn. rewrite upd_eq. destruct (Nat.eqb_spec x n) as [->|]; [|easy].
      now rewrite (proj2 (Hg _)). }
  destruct o; cbn [step handles] in *.
  - ok_bind H r E. injection H as <-. now apply (tidy_create_element D F t).
  - ok_bind H r E. injection H as <-. now apply (tidy_create_node D F ty s).
  - apply (remove_tidy D n D' I T); [apply Hn; now left|easy].
  - ok_bind H r E. injection H as <-. unfold drain in E. apply (drain_tidy f _ _ (D, 0) r I T) in E; [easy|].
    intros m Hm. exact (first_lt D _ m I Hm).
  - ok_bind H r E. injection H as <-. now apply (tidy_copy_node n D F).
  - ok_bind H r E. injection H as <-. unfold copy_node_deep in E. ok_bind E r1 E1. ok_bind E D2 E2.
    injection E as <-. cbn [snd]. destruct (copy_node_inv n D F r1 IF E1) as (Hf & I1 & _ & Hs & Hr).
    assert (I1' : Inv True (snd r1)) by now exists F.
    assert (Hlt : fst r1 < fresh (snd r1)) by lia.
    exact (tidy_deep _ _ _ _ _ I1' (tidy_copy_node n D F r1 IF T E1) Hlt E2).
  - unfold on_links in H. ok_bind H L' E. injection H as <-. exact T.
  - unfold on_links in H. ok_bind H L' E. injection H as <-. exact T.
  - unfold on_links in H. ok_bind H L' E. injection H as <-. exact T.
  - unfold on_links in H. ok_bind H L' E. injection H as <-. exact T.
  - unfold on_links in H. ok_bind H L' E. injection H as <-. exact T.
  - unfold set_text in H. destruct (is_element D n); [easy|]. injection H as <-. now apply Hdata.
  - injection H as <-. now apply Hdata.
  - unfold set_id in H. destruct (is_element D n); [|easy]. injection H as <-. now apply Hdata.
  - unfold set_tag_name in H. destruct (is_element D n); [|easy]. cbn in H.
    destruct (empty_tag t); [easy|]. injection H as <-. now apply Hdata.
  - apply (tidy_set' D F n a D' IF T Hsv); [apply Hst; now left| |easy].
    intros t Ht. apply Hst. rewrite Ht. right. now left.
  - ok_bind H r E. injection H as <-. apply (tidy_set D F n a r IF T Hsv); [apply Hst; now left| |easy].
    intros t Ht. apply Hst. rewrite Ht. right. now left.
  - unfold set_attribute_if_none in H. destruct (negb _); [|now injection H as <-].
    apply (tidy_set' D F n a D' IF T Hsv); [apply Hst; now left| |easy].
    intros t Ht. apply Hst. rewrite Ht. right. now left.
  - destruct (remove_attribute_spec n name D (iv_link D F IF)) as (D1 & E & Hf & Ha & _). rewrite E in H. injection H as <-.
    apply (tidy_sub D); [easy| |].
    + intros x a Hin. rewrite Ha in Hin. destruct (Nat.eqb x n); [|easy]. now apply in_drop_name in Hin.
    + intros x. now rewrite (fr_key _ _ Hf).
  - injection H as <-. destruct Hp as (Hp1 & _). intros x b t Hin Ht. rewrite edit_attrs in Hin.
    rewrite ?(fr_key _ _ (edit_frame n name a D)). destruct (Nat.eqb_spec x n) as [->|]; [|now apply (T x b t)].
    apply in_attrs_edit in Hin. destruct Hin as [->|Hin]; [congruence|now apply (T n b t)].
Qed.

Lemma orderly_tame D : reachable_orderly D -> reachable_tame D.
Proof. induction 1; [now apply tame_new|]. eapply tame_step; eauto. Qed.

Theorem orderly_tidy D : reachable_orderly D -> tidy D.
Proof.
  intros H. induction H as [D H|D o D' H IH Hl Hc Ho Hs].
  - destruct new_document_inv as (D0 & E & I & Hf & Hr & _). rewrite E in H. injection H as <-.
    intros x a t Ha. exfalso. destruct (attrs_lt D0 _ I x) as [Hx|Hx]; [|now rewrite Hx in Ha].
    assert (Hx0 : x = droot D0) by lia. apply (iv_root D0 _ I x Hx) in Hx0.
    destruct (iv_plain D0 _ I x) as (Ea & _); [unfold is_element; now rewrite Hx0|]. now rewrite Ea in Ha.
  - apply (step_tidy o D D'); try easy. apply tame_inv. now apply orderly_tame.
Qed.
