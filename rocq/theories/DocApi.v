(* Glue for the properties of document.rs. *)
From Coq Require Import List Bool PeanoNat NArith Lia.
From Verif Require Import Base Ids Links Tree Iter ForestSpec TreeSpec ListFacts TreeProofs ForestFacts IterSpec IterProofs
  PruneFacts Data Attrs Slab SlabProofs NodeApi AttrSpec Doc AttrFacts LinkProofs History DocSpec RemoveProofs InvProofs
  HistoryProofs DrainProofs CopyProofs DropProofs TidyProofs TreeApi ApiProofs.
From Verif Require RemoveExact.
Import ListNotations.

(* ---- remove_node in orderly documents *)
Lemma filter_true {A} (p : A -> bool) l : (forall x, In x l -> p x = true) -> filter p l = l.
Proof.
  induction l as [|a l IH]; intros H; [easy|]. cbn. rewrite (H a (or_introl eq_refl)), IH; [easy|].
  intros x Hx. apply H. now right.
Qed.

Definition into (S : list nid) (a : attr) : bool :=
  match link_target (a_value a) with Some t => mem t S | None => false end.

Lemma orderly_removed S D D' : tidy D -> LInv D' -> removed S D D' ->
  (forall x, ~ In x S -> attributes D' x = filter (fun a => negb (into S a)) (attributes D x)) /\
  (forall x, In x S -> attributes D' x = filter (fun a => negb (is_link_container (a_value a))) (attributes D x)) /\
  (forall x, ~ In x S -> linked_nodes D' x = without S (linked_nodes D x)) /\
  (forall x, In x S -> linked_nodes D' x = []).
Proof.
  intros T I R. pose proof (tidy_removed S D D' R T) as T'.
  assert (Hnone : forall x, In x S -> storage_key D' x = None).
  { intros x Hx. rewrite (rv_key _ _ _ R). apply mem_In in Hx. now rewrite Hx. }
  split; [|split; [|split]].
  - intros x Hx. rewrite (rv_attrs _ _ _ R). apply filter_ext_in. intros a Ha. f_equal. unfold cut, into.
    apply mem_not_In in Hx. rewrite Hx. cbn [orb]. destruct (link_target (a_value a)) as [t|] eqn:Et.
    + destruct (T x a t Ha Et) as ((id & Eid) & _). unfold svg_link. now rewrite Eid, is_link_container_target, Et.
    + apply andb_false_r.
  - intros x Hx. rewrite (rv_attrs _ _ _ R). apply filter_ext_in. intros a Ha. f_equal. unfold cut.
    apply mem_In in Hx. rewrite Hx. cbn [orb]. rewrite andb_true_r, is_link_container_target.
    unfold svg_link. rewrite is_link_container_target. destruct (link_target (a_value a)) as [t|] eqn:Et.
    + destruct (T x a t Ha Et) as ((id & Eid) & _). now rewrite Eid.
    + now destruct (a_name a).
  - intros x Hx. unfold without. rewrite <- (rv_linked _ _ _ R (fun y => negb (mem y S)) x); [|intros s Hs; apply mem_In in Hs; now rewrite Hs|easy].
    symmetry. apply filter_true. intros u Hu. apply negb_true_iff, mem_not_In. intros HuS.
    assert (Hc : 0 < count_links x (attributes D' u)).
    { rewrite <- (li_sym D' I u x). now apply (count_occ_In Nat.eq_dec). }
    apply count_links_pos in Hc. destruct Hc as (a & Ha & Ht). destruct (T' u a x Ha Ht) as (_ & Hk & _).
    now apply Hnone in HuS.
  - intros x Hx. apply (tidy_unlinked D' I T'). now apply Hnone.
Qed.

(* ---- removing a node that was removed before *)
Lemma removed_again D F t D' : reachable D -> shows (lk D) F -> tree_at F t -> exists_node D (t_node t) ->
  remove_node (t_node t) D = Ok D' ->
  exists D'', remove_node (t_node t) D' = Ok D'' /\
    (forall F', shows (lk D') F' -> shows (lk D'') F') /\
    (forall x, storage_key D'' x = storage_key D' x) /\
    (forall x, attributes D'' x = attributes D' x) /\
    (forall x y, times x (linked_nodes D'' y) = times x (linked_nodes D' y)) /\
    (forall x, text_of D'' x = text_of D' x /\ tag_name D'' x = tag_name D' x /\ id_of D'' x = id_of D' x).
Proof.
  intros H S Ht Hn E. destruct (reach_remove D F t H S Ht Hn) as (D1 & E1 & S1 & R1 & I1 & L1).
  rewrite E in E1. injection E1 as <-. set (n := t_node t) in *.
  assert (Ht1 : tree_at (f_prune (preorder t) F) (T n [])).
  { constructor; [|easy]. apply prune_in. unfold n. apply preorder_self. }
  destruct (remove_node_spec D' _ (T n []) I1 Ht1) as (D2 & E2 & I2 & R2).
  { cbn [t_node]. rewrite (rv_fresh _ _ _ R1). exact Hn. }
  cbn [t_node preorder flat_map] in *. exists D2. split; [easy|].
  assert (Hin : In n (preorder t)) by (unfold n; apply preorder_self).
  assert (Hattr : forall x, attributes D2 x = attributes D' x).
  { intros x. rewrite (rv_attrs _ _ _ R2). apply filter_true. intros a Ha.
    rewrite (rv_attrs _ _ _ R1) in Ha. apply filter_In in Ha. destruct Ha as (_ & Hc).
    apply negb_true_iff. apply negb_true_iff in Hc. unfold cut in *. destruct (svg_link a); [|easy]. cbn [andb] in *.
    apply orb_false_iff in Hc. destruct Hc as (H1 & H2). apply orb_false_iff. split.
    - apply mem_not_In. intros [<-|[]]. apply mem_not_In in H1. easy.
    - destruct (link_target (a_value a)); [|easy]. apply mem_not_In. intros [<-|[]]. apply mem_not_In in H2. easy. }
  split; [|split; [|split; [|split]]].
  - intros F' S'. apply shows_Rep. apply (InvF_ext D2 (f_prune [n] (f_prune (preorder t) F)) F'); [|easy].
    assert (Hq : forest_eq (f_prune (preorder t) F) F') by now apply (forest_eq_shows (lk D')).
    apply (forest_eq_trans _ (f_prune (preorder t) F)); [|easy].
    pose proof (mem_In n (preorder t)) as Hm. apply Hm in Hin as Hmem.
    assert (Hw : forall l, without [n] (without (preorder t) l) = without (preorder t) l).
    { intros l. unfold without at 1. apply filter_true. intros x Hx. unfold without in Hx. apply filter_In in Hx.
      destruct Hx as (_ & Hx). apply negb_true_iff, mem_not_In. intros [<-|[]]. now rewrite Hmem in Hx. }
    assert (Hs1 : forall m, without [n] [m] = if Nat.eqb m n then [] else [m]).
    { intros m. unfold without. cbn [filter]. rewrite mem_cons. change (mem m []) with false. rewrite orb_false_r.
      now destruct (Nat.eqb m n). }
    split; [|split]; intros m; cbn [f_prune parent_of siblings_of children_of]; rewrite mem_cons;
      change (mem m []) with false; rewrite orb_false_r;
      (destruct (Nat.eqb_spec m n) as [->|Hm1]; [now rewrite Hmem|]); try easy;
      destruct (mem m (preorder t)); try easy; try apply Hw.
    rewrite Hs1. destruct (Nat.eqb_spec m n); easy.
  - intros x. rewrite (rv_key _ _ _ R2), mem_cons. change (mem x []) with false. rewrite orb_false_r.
    destruct (Nat.eqb_spec x n) as [->|]; [|easy]. rewrite (rv_key _ _ _ R1). apply mem_In in Hin. now rewrite Hin.
  - exact Hattr.
  - intros x y. unfold times. rewrite (li_sym D2 (iv_link _ _ I2) x y), Hattr. symmetry. apply (li_sym D' L1).
  - intros x. rewrite (rv_text _ _ _ R2), (rv_tag _ _ _ R2), (rv_id _ _ _ R2). easy.
Qed.

(* ---- storage *)
Definition keys_kept (D D' : dom) : Prop :=
  fresh D <= fresh D' /\
  forall n, n < fresh D' -> (storage_key D' n = None <-> n < fresh D /\ storage_key D n = None).

Lemma kept_refl D D' : fresh D' = fresh D -> (forall n, storage_key D' n = storage_key D n) -> keys_kept D D'.
Proof. intros Hf Hk. split; [lia|]. intros n Hn. rewrite Hk, <- Hf. tauto. Qed.
Lemma kept_trans D1 D2 D3 : keys_kept D1 D2 -> keys_kept D2 D3 -> keys_kept D1 D3.
Proof.
  intros (H1 & K1) (H2 & K2). split; [lia|]. intros n Hn. rewrite (K2 n Hn). split.
  - intros (Hn2 & Hk). now apply K1.
  - intros (Hn1 & Hk). assert (n < fresh D2) by lia. split; [easy|]. now apply K1.
Qed.
Lemma kept_frame D D' : frame D D' -> keys_kept D D'.
Proof. intros []. now apply kept_refl. Qed.
Lemma kept_alloc D D' k ty tag s : fresh D' = S (fresh D) ->
  (forall m, dt D' m = if Nat.eqb m (fresh D) then set_key (Some k) (new_data ty tag s) else dt D m) -> keys_kept D D'.
Proof.
  intros Hf Hd. split; [lia|]. intros n Hn. unfold storage_key. rewrite Hd.
  destruct (Nat.eqb_spec n (fresh D)) as [->|]; cbn; [split; [easy|lia]|]. split; [intros; split; [lia|easy]|tauto].
Qed.
Lemma kept_copy n D F r : InvF D F -> copy_node n D = Ok r -> keys_kept D (snd r).
Proof.
  intros I H. unfold copy_node in H. destruct (node_type D n).
  1,3,4: (destruct (create_node_inv D F _ _ r I H) as (_ & _ & _ & Hf & _ & k & Hd); eapply kept_alloc; eauto).
  ok_bind H r1 E1. destruct (create_element_inv D F _ r1 I E1) as (Hn & I1 & Hl & Hf & Hr & k & Hd).
  ok_bind H D2 E2. injection H as <-. cbn [snd]. destruct (copy_attrs_inv _ _ _ _ _ _ I1 E2) as (_ & Hf2).
  eapply kept_trans; [eapply kept_alloc; eauto|]. now apply kept_frame.
Qed.
Lemma kept_deep fuel : forall p n D D', Inv True D -> p < fresh D -> make_deep_copy fuel p n D = Ok D' -> keys_kept D D'.
Proof.
  induction fuel as [|fuel IH]; intros p n D D' I Hp H; [easy|]. cbn [make_deep_copy] in H.
  assert (HH : Inv True D' /\ keys_kept D D'); [|tauto].
  eapply (for_children_inv lk (fun X => Inv True X /\ keys_kept D X)); [|split;[exact I|now apply kept_refl]|exact H].
  intros c s s' ((F & Is & HA) & Hk) Hb. cbv beta in Hb. pose proof (proj1 Hk) as Hle.
  ok_bind Hb r E. destruct (copy_node_inv c s F r Is E) as (Hn & I1 & Hl & Hf & Hr).
  pose proof (kept_copy c s F r Is E) as K1.
  ok_bind Hb L' E2.
  assert (I2 : InvF (with_lk L' (snd r)) (f_append p (fst r) F)).
  { apply append_inv; [easy|lia|lia|easy]. }
  assert (HA2 : True -> acyclic (f_append p (fst r) F)).
  { intros a. apply acyclic_append; [apply Is|auto|]. intros Hanc.
    apply iso_anc in Hanc; [|apply Is|apply (iv_iso s F Is); lia]. lia. }
  assert (I3 : Inv True (with_lk L' (snd r))) by now exists (f_append p (fst r) F).
  assert (K2 : keys_kept D (with_lk L' (snd r))).
  { eapply kept_trans; [exact Hk|]. eapply kept_trans; [exact K1|]. now apply kept_refl. }
  destruct (has_children _ c).
  - assert (Hlt : fst r < fresh (with_lk L' (snd r))) by (cbn; lia).
    pose proof (deep_copy_inv True _ _ _ _ _ I3 Hlt Hb) as (I4 & _). split; [easy|].
    eapply kept_trans; [exact K2|]. now apply (IH (fst r) c).
  - injection Hb as <-. split; [easy|exact K2].
Qed.

Theorem step_keys o D D' : Inv True D -> step o D = Ok D' ->
  match o with ORemoveNode _ | ODrain _ _ => False | _ => True end -> keys_kept D D'.
Proof.
  intros I H Ho. pose proof I as (F & IF & HA).
  assert (Hdata : forall n g, (forall d, d_key (g d) = d_key d) -> keys_kept D (modify n g D)).
  { intros n g Hg. apply kept_refl; [easy|]. intros x. unfold modify, storage_key. cbn. rewrite upd_eq.
    destruct (Nat.eqb_spec x n) as [->|]; [apply Hg|easy]. }
  destruct o; cbn [step] in *; try easy.
  - ok_bind H r E. injection H as <-. destruct (create_element_inv D F _ _ IF E) as (_ & _ & _ & Hf & _ & k & Hd).
    eapply kept_alloc; eauto.
  - ok_bind H r E. injection H as <-. destruct (create_node_inv D F _ _ _ IF E) as (_ & _ & _ & Hf & _ & k & Hd).
    eapply kept_alloc; eauto.
  - ok_bind H r E. injection H as <-. now apply (kept_copy n D F).
  - ok_bind H r E. injection H as <-. unfold copy_node_deep in E. ok_bind E r1 E1. ok_bind E D2 E2.
    injection E as <-. cbn [snd]. destruct (copy_node_inv n D F r1 IF E1) as (Hf & I1 & Hlk & Hs & Hr).
    assert (I1' : Inv True (snd r1)) by now exists F.
    assert (Hlt : fst r1 < fresh (snd r1)) by lia.
    eapply kept_trans; [exact (kept_copy n D F r1 IF E1)|]. exact (kept_deep _ _ _ _ _ I1' Hlt E2).
  - unfold on_links in H. ok_bind H L' E. injection H as <-. now apply kept_refl.
  - unfold on_links in H. ok_bind H L' E. injection H as <-. now apply kept_refl.
  - unfold on_links in H. ok_bind H L' E. injection H as <-. now apply kept_refl.
  - unfold on_links in H. ok_bind H L' E. injection H as <-. now apply kept_refl.
  - unfold on_links in H. ok_bind H L' E. injection H as <-. now apply kept_refl.
  - unfold set_text in H. destruct (is_element D n); [easy|]. injection H as <-. now apply Hdata.
  - injection H as <-. now apply Hdata.
  - unfold set_id in H. destruct (is_element D n); [|easy]. injection H as <-. now apply Hdata.
  - unfold set_tag_name in H. destruct (is_element D n); [|easy]. cbn in H.
    destruct (empty_tag t); [easy|]. injection H as <-. now apply Hdata.
  - apply (set_attribute_inv D F) in H; [|easy]. apply kept_frame, H.
  - ok_bind H r E. injection H as <-. apply (set_checked_inv D F) in E; [|easy]. apply kept_frame, E.
  - unfold set_attribute_if_none in H. destruct (negb _).
    + apply (set_attribute_inv D F) in H; [|easy]. apply kept_frame, H.
    + injection H as <-. now apply kept_refl.
  - destruct (remove_attribute_inv D F n name IF) as (D1 & E & I1 & Hf). rewrite E in H. injection H as <-.
    now apply kept_frame.
  - injection H as <-. apply kept_frame, edit_frame.
Qed.

Lemma history_tame R D : history R D -> reachable_tame D.
Proof. induction 1; [now apply tame_new|]. eapply tame_step; eauto. Qed.

Lemma tame_acyclic D : reachable_tame D -> acyclic_dom D.
Proof. intros H. apply Inv_acyclic. now apply tame_inv. Qed.

Lemma removed_keys S D D' : removed S D D' -> (forall x, In x S -> x < fresh D) ->
  forall R, (forall n, n < fresh D -> storage_key D n = None <-> In n R) -> (forall n, In n R -> n < fresh D) ->
  (forall n, n < fresh D' -> storage_key D' n = None <-> In n (R ++ S)) /\ (forall n, In n (R ++ S) -> n < fresh D').
Proof.
  intros V HS R HR HR2. rewrite (rv_fresh _ _ _ V). split.
  - intros n Hn. rewrite (rv_key _ _ _ V), in_app_iff. destruct (mem n S) eqn:Em.
    + apply mem_In in Em. tauto.
    + apply mem_not_In in Em. rewrite (HR n Hn). tauto.
  - intros n Hn. apply in_app_iff in Hn. destruct Hn; auto.
Qed.

Theorem history_detached R D : history R D ->
  (forall n, exists_node D n -> (is_detached D n = true <-> In n R)).
Proof.
  intros H. unfold exists_node.
  enough (G : (forall n, n < fresh D -> storage_key D n = None <-> In n R) /\ (forall n, In n R -> n < fresh D)).
  { intros n Hn. unfold is_detached. destruct G as (G & _). specialize (G n Hn).
    destruct (storage_key D n); [|tauto]. split; [easy|]. intros Hin. apply G in Hin. easy. }
  induction H as [D H|R D o S D' H (IH1 & IH2) Hl Hc Ht Hs].
  - destruct new_document_inv as (D0 & E & I & Hf & _). rewrite E in H. injection H as <-. split; [|easy].
    intros n Hn. assert (n = 0) by lia. subst n. split; [|easy]. intros Hk.
    assert (E0 : exists D0, new_document = Ok D0 /\ storage_key D0 0 <> None).
    { eexists. split; [reflexivity|]. unfold storage_key. cbn. easy. }
    destruct E0 as (D1 & E1 & Hk1). rewrite E in E1. injection E1 as <-. easy.
  - pose proof (history_tame R D H) as T. pose proof (tame_reachable D T) as Rch.
    destruct Ht as [F t Sh Ht|F t f Sh Ht Hst|o Ho].
    + assert (Hn : exists_node D (t_node t)) by (apply Hl; now left).
      destruct (reach_remove D F t Rch Sh Ht Hn) as (D1 & E1 & _ & R1 & _). cbn [step] in Hs. rewrite Hs in E1.
      injection E1 as <-. apply (removed_keys _ D D' R1); auto.
      intros x Hx. apply (tree_nodes_exist D F t (shows_inv D F Rch Sh) Ht Hn x Hx).
    + assert (Hn : exists_node D (t_node t)) by (apply Hl; now left).
      destruct (drain_spec D F t f (shows_inv D F Rch Sh) Ht Hn Hst) as (D1 & E1 & _ & R1 & _).
      cbn [step] in Hs. rewrite E1 in Hs. injection Hs as <-. apply (removed_keys _ D D1 R1); auto.
      intros x Hx. apply (tree_nodes_exist D F t (shows_inv D F Rch Sh) Ht Hn x).
      apply maximals_sub in Hx. destruct t as [n ts]. now right.
    + rewrite app_nil_r. destruct (step_keys o D D' (tame_inv D T) Hs Ho) as (Hle & Hk). split.
      * intros n Hn. rewrite (Hk n Hn). split.
        -- intros (Hn1 & Hk1). now apply IH1.
        -- intros Hin. pose proof (IH2 n Hin). split; [easy|]. now apply IH1.
      * intros n Hin. apply IH2 in Hin. lia.
Qed.

(* ---- drain *)
Definition topmost (F : forest) (p : nid -> bool) (n x : nid) : Prop :=
  anc_or_self F n x /\ p x = true /\
  forall y, anc_or_self F n y -> anc_or_self F y x -> y <> x -> p y = false.

Lemma maximal_topmost F p : wf_forest F -> forall t, tree_at F t ->
  forall x, In x (map t_node (maximal p t)) <-> topmost F p (t_node t) x.
Proof.
  intros W. induction t as [n ts IH] using tree_ind'. intros Hat x.
  inversion Hat as [? ? E Hall]; subst. rewrite Forall_forall in IH, Hall. cbn [maximal t_node].
  destruct (p n) eqn:Ep.
  - cbn. split.
    + intros [<-|[]]. split; [constructor|]. split; [easy|]. intros y H1 H2 Hy. exfalso. apply Hy.
      now apply (tree_antisym F (T n ts) y W Hat).
    + intros (Hx & Px & Hy). left. destruct (Nat.eq_dec n x) as [|Hne]; [easy|].
      specialize (Hy n (aos_self F n) Hx Hne). congruence.
  - rewrite in_map_iff. split.
    + intros (u & <- & Hu). apply in_flat_map in Hu. destruct Hu as (c & Hc & Hu).
      assert (Ht : topmost F p (t_node c) (t_node u)) by (apply (IH c Hc (Hall c Hc)); now apply in_map).
      assert (Hpc : parent_of F (t_node c) = Some n) by (apply (wf_child F W); rewrite E; now apply in_map).
      destruct Ht as (Hx & Px & Hy). split; [|split; [easy|]].
      * eapply anc_trans; [|exact Hx]. now apply anc_parent.
      * intros y Hny Hyu Hne. destruct (anc_linear F y (t_node c) (t_node u) Hyu Hx) as [Hyc|Hcy].
        -- inversion Hyc as [|? ? q Hq Hyq]; subst; [apply Hy; [constructor|easy|easy]|].
           rewrite Hpc in Hq. injection Hq as <-. rewrite (tree_antisym F (T n ts) y W Hat Hyq Hny). easy.
        -- now apply Hy.
    + intros (Hx & Px & Hy). destruct (anc_child F n x W Hx) as [->|(c & Hc & Hcx)]; [congruence|].
      rewrite E in Hc. apply in_map_iff in Hc. destruct Hc as (u & <- & Hu).
      assert (Hpc : parent_of F (t_node u) = Some n) by (apply (wf_child F W); rewrite E; now apply in_map).
      assert (Ht : topmost F p (t_node u) x).
      { split; [easy|]. split; [easy|]. intros y H1 H2 H3. apply Hy; [|easy|easy].
        eapply anc_trans; [|exact H1]. now apply anc_parent. }
      apply (IH u Hu (Hall u Hu)) in Ht. apply in_map_iff in Ht. destruct Ht as (v & <- & Hv).
      exists v. split; [easy|]. apply in_flat_map. eauto.
Qed.

(* the nodes drain takes out: proper descendants that match and have no matching proper ancestor
   below the start node *)
Theorem drained_topmost F p t : wf_forest F -> tree_at F t -> forall x,
  In x (map t_node (flat_map (maximal p) (t_kids t))) <->
  (x <> t_node t /\ anc_or_self F (t_node t) x /\ p x = true /\
   forall y, y <> t_node t -> y <> x -> anc_or_self F (t_node t) y -> anc_or_self F y x -> p y = false).
Proof.
  intros W Ht x. destruct t as [n ts]. cbn [t_node t_kids].
  inversion Ht as [? ? E Hall]; subst. rewrite Forall_forall in Hall. split.
  - intros H. apply in_map_iff in H. destruct H as (u & <- & Hu). apply in_flat_map in Hu. destruct Hu as (c & Hc & Hu).
    assert (Ht2 : topmost F p (t_node c) (t_node u)) by (apply (maximal_topmost F p W c (Hall c Hc)); now apply in_map).
    assert (Hpc : parent_of F (t_node c) = Some n) by (apply (wf_child F W); rewrite E; now apply in_map).
    destruct Ht2 as (Hx & Px & Hy). split; [|split; [|split; [easy|]]].
    + intros En. rewrite En in Hx. apply (tree_no_loop F (T n ts) (t_node c) W Ht Hx Hpc).
    + eapply anc_trans; [|exact Hx]. now apply anc_parent.
    + intros y Hyn Hne Hny Hyu. destruct (anc_linear F y (t_node c) (t_node u) Hyu Hx) as [Hyc|Hcy].
      * inversion Hyc as [|? ? q Hq Hyq]; subst; [apply Hy; [constructor|easy|easy]|].
        rewrite Hpc in Hq. injection Hq as <-. now rewrite (tree_antisym F (T n ts) y W Ht Hyq Hny) in Hyn.
      * now apply Hy.
  - intros (Hxn & Hx & Px & Hy). destruct (anc_child F n x W Hx) as [->|(c & Hc & Hcx)]; [easy|].
    rewrite E in Hc. apply in_map_iff in Hc. destruct Hc as (u & <- & Hu).
    assert (Hpc : parent_of F (t_node u) = Some n) by (apply (wf_child F W); rewrite E; now apply in_map).
    assert (Ht2 : topmost F p (t_node u) x).
    { split; [easy|]. split; [easy|]. intros y H1 H2 H3. apply Hy; [|easy| |easy].
      - intros ->. apply (tree_no_loop F (T n ts) (t_node u) W Ht H1 Hpc).
      - eapply anc_trans; [|exact H1]. now apply anc_parent. }
    apply (maximal_topmost F p W u (Hall u Hu)) in Ht2. apply in_map_iff in Ht2. destruct Ht2 as (v & <- & Hv).
    apply in_map. apply in_flat_map. eauto.
Qed.

Lemma remove_exact D F n : reachable D -> shows (lk D) F -> exists_node D n ->
  (finite_at F n /\ exists D', remove_node n D = Ok D') \/
  (~ finite_at F n /\ forall fuel, remove_rec fuel n D = Diverge).
Proof.
  intros H S Hn. pose proof (shows_inv D F H S) as I.
  assert (RI : RemoveProofs.RInv D F) by (split; [apply I|split; apply I]).
  destruct (remove_node n D) as [D'| |] eqn:E.
  - left. split; [|eauto]. apply (RemoveExact.remove_rec_finite_only (enough D) n D F RI). unfold remove_node in E. now rewrite E.
  - exfalso. assert (Hf : finite_at F n).
    { apply (RemoveExact.remove_rec_finite_only (enough D) n D F RI). unfold remove_node in E. now rewrite E. }
    destruct Hf as (t & <- & Ht). destruct (reach_remove D F t H S Ht Hn) as (D' & E' & _). congruence.
  - right. assert (Hf : ~ finite_at F n).
    { intros (t & <- & Ht). destruct (reach_remove D F t H S Ht Hn) as (D' & E' & _). congruence. }
    split; [exact Hf|]. intros fuel. destruct (remove_rec fuel n D) as [D'| |] eqn:Er; [| |easy];
      exfalso; apply Hf, (RemoveExact.remove_rec_finite_only fuel n D F RI); now rewrite Er.
Qed.

(* ---- the statements of the properties *)
Lemma prune_pruned S F : pruned S F (f_prune S F).
Proof.
  split; intros x Hx; cbn [f_prune parent_of children_of siblings_of];
    (apply mem_In in Hx || apply mem_not_In in Hx); rewrite Hx; reflexivity.
Qed.

Lemma remove_cases_api D F t : reachable D -> shows (lk D) F -> tree_at F t ->
  exists_node D (t_node t) ->
  exists D' F', remove_node (t_node t) D = Ok D' /\ removed (preorder t) D D' /\ shows (lk D') F' /\
    pruned (preorder t) F F' /\ (acyclic_dom D -> acyclic_dom D').
Proof.
  intros H S Ht Hn. destruct (reach_remove D F t H S Ht Hn) as (D' & E & S' & R & I & L).
  exists D', (f_prune (preorder t) F). split; [easy|]. split; [easy|]. split; [easy|]. split; [apply prune_pruned|].
  intros A. apply (Inv_acyclic D'). exists (f_prune (preorder t) F). split; [easy|]. intros _.
  apply acyclic_prune. exact (shows_acyclic D F H A S).
Qed.

Lemma remove_orderly D F t D' : reachable_orderly D -> shows (lk D) F -> tree_at F t ->
  exists_node D (t_node t) -> remove_node (t_node t) D = Ok D' ->
  unlinked_all (preorder t) D D'.
Proof.
  intros H S Ht Hn E. pose proof (orderly_tame D H) as T. pose proof (tame_reachable D T) as Rc.
  destruct (reach_remove D F t Rc S Ht Hn) as (D1 & E1 & S' & R & I & L).
  rewrite E in E1. injection E1 as <-.
  destruct (orderly_removed _ D D' (orderly_tidy D H) L R) as (O1 & O2 & O3 & O4). split; assumption.
Qed.

Lemma drain_api D F t f : reachable D -> shows (lk D) F -> tree_at F t ->
  exists_node D (t_node t) -> stable f D ->
  let tops := flat_map (maximal (f D)) (t_kids t) in
  let S := flat_map preorder tops in
  exists D' F', drain (t_node t) f D = Ok (D', length tops) /\ removed S D D' /\ shows (lk D') F' /\
    pruned S F F' /\ tree_at F' (drained (f D) t).
Proof.
  intros H Sh Ht Hn St tops S.
  destruct (drain_spec D F t f (shows_inv D F H Sh) Ht Hn St) as (D' & E & I & R & T).
  exists D', (f_prune S F). split; [easy|]. split; [easy|]. split; [apply shows_Rep, I|]. split; [apply prune_pruned|easy].
Qed.

Lemma drain_which D F t f : reachable D -> shows (lk D) F -> tree_at F t ->
  forall x, In x (map t_node (flat_map (maximal (f D)) (t_kids t))) <->
  (x <> t_node t /\ anc_or_self F (t_node t) x /\ f D x = true /\
   forall y, y <> t_node t -> y <> x -> anc_or_self F (t_node t) y -> anc_or_self F y x -> f D y = false).
Proof.
  intros H S Ht. apply drained_topmost; [apply (sh_wf _ _ S)|easy].
Qed.

Lemma slots D : reachable D ->
  (forall n k, storage_key D n = Some k <-> slab_get (store D) k = Some n) /\
  (forall n m k, storage_key D n = Some k -> storage_key D m = Some k -> n = m) /\
  (forall n k, storage_key D n = Some k -> exists s, slab_remove (store D) k = Ok (n, s)).
Proof.
  intros H. destruct (reachable_inv D H) as (F & I & _). pose proof (iv_slab D F I) as S.
  split; [|split].
  - intros n k. split; [apply (so_fwd _ _ S)|apply (so_bwd _ _ S)].
  - intros n m k Hn Hm. apply (so_fwd _ _ S) in Hn, Hm. congruence.
  - intros n k Hk. apply (so_fwd _ _ S) in Hk. unfold slab_get, slab_remove in *.
    destruct (nth_error (s_entries (store D)) k) as [[x|]|]; try easy. injection Hk as ->. eauto.
Qed.

Lemma copy_api D n : reachable D -> exists_node D n -> copyable D n ->
  exists D', copy_node n D = Ok (fresh D, D') /\ copy_of D n D' (fresh D) /\ copy_effect D n (fresh D) D' /\
    parent (lk D') (fresh D) = None /\ first_child (lk D') (fresh D) = None /\
    next_sibling (lk D') (fresh D) = None /\ previous_sibling (lk D') (fresh D) = None.
Proof.
  intros H Hn (Hr & Ht). destruct (reachable_shows D H) as (F & S). pose proof (shows_inv D F H S) as I.
  destruct (CopyProofs.copy_node_spec D F n I Hn Hr Ht) as (D' & E & I' & Hl & Hf & C & X). exists D'.
  split; [easy|]. split; [easy|]. split; [|rewrite Hl].
  - destruct X as [x1 x2 x3]. split; try easy; intros x Hx; destruct (x3 x Hx) as (y1 & y2 & y3 & y4 & y5 & y6 & y7); easy.
  - destruct (iv_iso D F I (fresh D) (le_n _)) as (i1 & i2 & i3).
    rewrite (sh_parent _ _ S), (sh_first _ _ S), (sh_next _ _ S), (sh_prev _ _ S), i1, i2, i3.
    unfold pred_in. cbn. rewrite Nat.eqb_refl. easy.
Qed.

Lemma copy_fails_api D n : reachable D -> exists_node D n -> ~ copyable D n -> exists k, copy_node n D = Panic k.
Proof.
  intros H Hn Hc. destruct (reachable_shows D H) as (F & S). pose proof (shows_inv D F H S) as I.
  apply (CopyProofs.copy_node_fails D F n I Hn). destruct (node_type D n) eqn:E; [now left|..]; right.
  all: assert (Hn' : ~ targets_named D n) by (intros T; apply Hc; split; [rewrite E; easy|easy]).
  all: unfold targets_named in Hn'.
  all: assert (G : forall l, (forall a t, In a l -> link_target (a_value a) = Some t -> id_of D t <> []) \/
         exists a t, In a l /\ link_target (a_value a) = Some t /\ id_of D t = []).
  1,3,5: induction l as [|a l IH]; [left; easy|];
         destruct (link_target (a_value a)) as [t|] eqn:El;
         [destruct (id_of D t) eqn:Ei;
          [right; exists a, t; split; [now left|easy]|]|];
         (destruct IH as [IH|(b & u & B1 & B2 & B3)]; [left|right; exists b, u; split; [now right|easy]]);
         intros b u [<-|Hb] Hu; try (now apply (IH b)); congruence.
  all: destruct (G (attributes D n)) as [G1|G1]; [contradiction|exact G1].
Qed.

Lemma deep_api D F t : reachable D -> shows (lk D) F -> tree_at F t -> exists_node D (t_node t) ->
  (forall x, In x (preorder t) -> copyable D x) ->
  exists D' F' u, copy_node_deep (t_node t) D = Ok (t_node u, D') /\ shows (lk D') F' /\
    copied_tree D D' t u /\ tree_at F' u /\ parent_of F' (t_node u) = None /\ siblings_of F' (t_node u) = [t_node u] /\
    (forall x, In x (preorder u) <-> ~ exists_node D x /\ exists_node D' x) /\ grown (preorder t) D D' /\
    (forall x, exists_node D x -> parent_of F' x = parent_of F x /\ siblings_of F' x = siblings_of F x /\
                              children_of F' x = children_of F x).
Proof.
  intros H S Ht Hn Hc.
  destruct (CopyProofs.copy_node_deep_spec D F t (shows_inv D F H S) Ht Hn Hc)
    as (D' & F' & u & E & I & C & T & P & Si & N & G & O).
  exists D', F', u. split; [easy|]. split; [apply shows_Rep, I|]. split; [easy|]. split; [easy|]. split; [easy|].
  split; [easy|]. split; [|split; easy]. intros x. rewrite (N x). unfold exists_node. lia.
Qed.

Lemma drop_api D : reachable D -> acyclic_dom D -> (forall n, is_detached D n = true -> unlinked D n) ->
  exists D', drop_document D = Ok D' /\ forall n, ~ keeps_alive D' n n.
Proof.
  intros H A U. destruct (reachable_shows D H) as (F & S).
  apply (DropProofs.drop_no_cycle D F (shows_inv D F H S) (shows_acyclic D F H A S)).
  intros n Hn. apply U. unfold is_detached. now rewrite Hn.
Qed.
Lemma drop_orderly D : reachable_orderly D -> exists D', drop_document D = Ok D' /\ forall n, ~ keeps_alive D' n n.
Proof.
  intros H. pose proof (orderly_tame D H) as T. pose proof (tame_reachable D T) as Rc.
  apply drop_api; [easy|now apply tame_acyclic|]. intros n Hn. apply tidy_unlinked; [now apply reach_linv|now apply orderly_tidy|].
  unfold is_detached in Hn. now destruct (storage_key D n).
Qed.

Lemma copyable_dec D n : copyable D n \/ ~ copyable D n.
Proof.
  assert (G : forall l : list attr, (forall a t, In a l -> link_target (a_value a) = Some t -> id_of D t <> []) \/
         exists a t, In a l /\ link_target (a_value a) = Some t /\ id_of D t = []).
  { induction l as [|a l IH]; [left; easy|].
    destruct (link_target (a_value a)) as [t|] eqn:El.
    - destruct (id_of D t) eqn:Ei; [right; exists a, t; split; [now left|easy]|].
      destruct IH as [IH|(b & u & B1 & B2 & B3)]; [left|right; exists b, u; split; [now right|easy]].
      intros b u [<-|Hb] Hu; [congruence|now apply (IH b)].
    - destruct IH as [IH|(b & u & B1 & B2 & B3)]; [left|right; exists b, u; split; [now right|easy]].
      intros b u [<-|Hb] Hu; [congruence|now apply (IH b)]. }
  destruct (G (attributes D n)) as [G1|(a & t & A1 & A2 & A3)].
  - destruct (node_type D n) eqn:E; [right; intros (C & _); contradiction|..]; left; (split; [congruence|exact G1]).
  - right. intros (_ & C). now apply (C a t).
Qed.
Lemma copy_call D n m D' : reachable D -> exists_node D n -> copy_node n D = Ok (m, D') ->
  m = fresh D /\ copyable D n /\ copy_of D n D' m /\ copy_effect D n m D' /\
    parent (lk D') m = None /\ first_child (lk D') m = None /\
    next_sibling (lk D') m = None /\ previous_sibling (lk D') m = None.
Proof.
  intros H Hn E. destruct (copyable_dec D n) as [C|C].
  - destruct (copy_api D n H Hn C) as (D1 & E1 & R). rewrite E in E1. injection E1 as -> ->. split; [reflexivity|]. split; [exact C|exact R].
  - destruct (copy_fails_api D n H Hn C) as (k & E1). congruence.
Qed.
