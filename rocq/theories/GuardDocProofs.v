(* Proofs about the calls of Document under guards. *)
From Coq Require Import List Bool PeanoNat NArith Lia.
From Verif Require Import Base Ids Links Tree Iter ForestSpec TreeSpec ListFacts TreeProofs ForestFacts IterSpec IterProofs
  PruneFacts TreeApi Data Attrs AttrFacts Slab SlabProofs NodeApi AttrSpec Doc DocSpec History LinkProofs RemoveProofs InvProofs
  CopyProofs HistoryProofs ApiProofs Guards GuardSpec GuardTree GuardProofs GuardDoc GuardDocSpec.
Import ListNotations.

(* ---- a result that is a panic if [must], and only if [may] *)
Definition bounds {A} (must may : Prop) (v : A) (r : res A) : Prop :=
  r = Ok v /\ ~ must \/ r = Panic PBorrow /\ may.
Lemma bounds_weaken {A} (m m' M M' : Prop) (v : A) r : bounds m M v r -> (m' -> m) -> (M -> M') -> bounds m' M' v r.
Proof. intros [(E & H)|(E & H)] H1 H2; [left|right]; tauto. Qed.
Lemma bounds_ok {A} (m M : Prop) (v : A) : ~ m -> bounds m M v (Ok v).
Proof. intros H. now left. Qed.
Lemma bounds_bind {A B} (m1 M1 m2 M2 : Prop) (v : A) (w : B) r k : bounds m1 M1 v r -> bounds m2 M2 w (k v) ->
  bounds (m1 \/ m2) (M1 \/ M2) w (bind r k).
Proof. intros [(-> & H)|(-> & H)] [(E & H')|(E & H')]; cbn [bind]; [left|right|right|right]; tauto. Qed.
Lemma bounds_reading {A} g n (m M : Prop) (v : A) r : bounds m M v r ->
  bounds (held_mut g n \/ m) (held_mut g n \/ M) v (reading g n r).
Proof.
  intros B. destruct (held_mut_dec g n) as [H|H]; [rewrite reading_held by exact H; right; tauto|].
  rewrite reading_free by exact H. apply (bounds_weaken _ _ _ _ _ _ B); tauto.
Qed.
Lemma bounds_writing {A} g n (m M : Prop) (v : A) r : bounds m M v r ->
  bounds (held g n \/ m) (held g n \/ M) v (writing g n r).
Proof.
  intros B. destruct (held_dec g n) as [H|H]; [rewrite writing_held by exact H; right; tauto|].
  rewrite writing_free by exact H. apply (bounds_weaken _ _ _ _ _ _ B); tauto.
Qed.

(* ---- lists of attributes and users that get shorter *)
Definition shorter {A} (l' l : list A) : Prop := incl l' l /\ length l' <= length l /\ (length l' = length l -> l' = l).
Lemma shorter_refl {A} (l : list A) : shorter l l.
Proof. split; [apply incl_refl|]. now split. Qed.
Lemma shorter_trans {A} (l l1 l2 : list A) : shorter l1 l -> shorter l2 l1 -> shorter l2 l.
Proof.
  intros (I1 & L1 & E1) (I2 & L2 & E2). split; [now apply (incl_tran I2)|]. split; [lia|]. intros E. rewrite E2 by lia. apply E1. lia.
Qed.
Lemma shorter_filter {A} (p : A -> bool) l : shorter (filter p l) l.
Proof.
  induction l as [|x l (I & L & E)]; [apply shorter_refl|]. cbn [filter]. destruct (p x).
  - split; [intros y [->|H]; [now left|right; now apply I]|]. cbn. split; [lia|]. intros H. f_equal. apply E. lia.
  - split; [intros y H; right; now apply I|]. cbn. split; [lia|]. intros H. lia.
Qed.
Lemma shorter_del x l : shorter (del_first x l) l.
Proof.
  induction l as [|y l (I & L & E)]; [apply shorter_refl|]. cbn [del_first]. destruct (Nat.eqb y x).
  - split; [intros z H; now right|]. cbn. split; lia.
  - split; [intros z [->|H]; [now left|right; now apply I]|]. cbn. split; [lia|]. intros H. f_equal. apply E. lia.
Qed.
Lemma shorter_differ {A} (l l1 l2 : list A) : shorter l1 l -> shorter l2 l1 -> l2 <> l <-> l1 <> l \/ l2 <> l1.
Proof.
  intros (I1 & L1 & E1) (I2 & L2 & E2). split.
  - intros H. destruct (Nat.eq_dec (length l1) (length l)) as [H1|H1]; [|left; congruence]. rewrite (E1 H1) in *. now right.
  - intros [H|H] ->; apply H; [apply E1|apply E2]; lia.
Qed.
Definition shrinks (D D' : dom) : Prop :=
  forall x, shorter (attributes D' x) (attributes D x) /\ shorter (linked_nodes D' x) (linked_nodes D x).
Lemma shrinks_refl D : shrinks D D.
Proof. intros x. split; apply shorter_refl. Qed.
Lemma shrinks_trans D D1 D2 : shrinks D D1 -> shrinks D1 D2 -> shrinks D D2.
Proof. intros H1 H2 x. destruct (H1 x), (H2 x). split; eapply shorter_trans; eassumption. Qed.
Definition changed (D D' : dom) (x : nid) : Prop := attributes D' x <> attributes D x \/ linked_nodes D' x <> linked_nodes D x.
Lemma changed_trans D D1 D2 x : shrinks D D1 -> shrinks D1 D2 -> changed D D2 x <-> changed D D1 x \/ changed D1 D2 x.
Proof.
  intros H1 H2. destruct (H1 x) as (A1 & B1), (H2 x) as (A2 & B2). unfold changed.
  rewrite (shorter_differ _ _ _ A1 A2), (shorter_differ _ _ _ B1 B2). tauto.
Qed.
Lemma changed_refl D x : ~ changed D D x.
Proof. intros [H|H]; now apply H. Qed.
Lemma changed_same D D' E E' x : attributes D x = attributes E x -> linked_nodes D x = linked_nodes E x ->
  attributes D' x = attributes E' x -> linked_nodes D' x = linked_nodes E' x -> changed D D' x <-> changed E E' x.
Proof. intros H1 H2 H3 H4. unfold changed. rewrite H1, H2, H3, H4. tauto. Qed.

(* A user that is no longer one has lost an attribute. *)
Lemma user_gone D D' x m : LInv D -> LInv D' -> In x (linked_nodes D m) -> In x (linked_nodes D' m) \/ changed D D' x.
Proof.
  intros I I' H. destruct (in_dec Nat.eq_dec x (linked_nodes D' m)) as [H'|H']; [now left|]. right. left. intros E.
  apply (count_occ_In Nat.eq_dec) in H. apply (count_occ_not_In Nat.eq_dec) in H'. change (0 < cnt (linked_nodes D m) x) in H.
  change (cnt (linked_nodes D' m) x = 0) in H'. rewrite (li_sym D I) in H. rewrite (li_sym D' I'), E in H'. lia.
Qed.

(* ---- attributes *)
Lemma remove_shrinks self name D D' : LInv D -> remove_attribute self name D = Ok D' -> shrinks D D'.
Proof.
  intros I E. destruct (remove_attribute_spec self name D I) as (D1 & E1 & _ & Ha & Hl & _). assert (D1 = D') as -> by congruence.
  intros x. rewrite Ha, Hl. split.
  - destruct (Nat.eqb x self); [apply shorter_filter|apply shorter_refl].
  - destruct (named_target _ _) as [t|]; [destruct (Nat.eqb x t)|]; [apply shorter_del|apply shorter_refl|apply shorter_refl].
Qed.

Lemma remove_bounds g self name D : LInv D -> exists D', remove_attribute self name D = Ok D' /\ LInv D' /\ shrinks D D' /\
  let hit := exists x, held g x /\ changed D D' x in
  bounds (held_mut g self \/ hit) (held_mut g self \/ hit) D' (g_remove_attribute g self name D).
Proof.
  intros I. destruct (remove_attribute_spec self name D I) as (D' & E & _ & Ha & Hl & I'). exists D'. split; [exact E|].
  split; [exact I'|]. split; [exact (remove_shrinks self name D D' I E)|]. intros hit.
  destruct (g_remove_attribute_cases g self name D I) as (C1 & C2).
  destruct (has_attribute D self name) eqn:Eh.
  - destruct (C2 eq_refl) as (P & Q). clear C1 C2. rewrite E in Q. cbn zeta in P, Q.
    assert (Hself : changed D D' self).
    { left. rewrite Ha, Nat.eqb_refl. unfold has_attribute in Eh. apply contains_iff, in_map_iff in Eh. destruct Eh as (a & En & Hin).
      intros Eq. rewrite <- Eq in Hin. apply in_drop_name in Hin. now apply Hin. }
    assert (Htgt : forall t, points_to D self name t <-> named_target (attributes D self) name = Some t).
    { intros t. rewrite (named_target_in _ _ _ (li_uniq D I self)). split.
      - intros (a & Hin & <- & Ht). exists (a_value a). now destruct a.
      - intros (v & Hin & Ht). exists (mkAttr name v). easy. }
    assert (Hch : forall x, changed D D' x <-> x = self \/ points_to D self name x).
    { intros x. split.
      - intros [H|H]; [left|right].
        + rewrite Ha in H. destruct (Nat.eqb_spec x self); [easy|]. now elim H.
        + rewrite Hl in H. destruct (named_target (attributes D self) name) as [t|] eqn:Et; [|now elim H].
          destruct (Nat.eqb_spec x t) as [Ex|Ex]; [rewrite Ex; now apply Htgt|now elim H].
      - intros [->|H]; [exact Hself|]. right. rewrite Hl. pose proof H as H0. apply Htgt in H. rewrite H, Nat.eqb_refl.
        assert (Hin : In self (linked_nodes D x)).
        { apply (count_occ_In Nat.eq_dec). change (0 < cnt (linked_nodes D x) self). rewrite (li_sym D I).
          apply count_links_pos. destruct H0 as (a & Hin & _ & Ht). now exists a. }
        intros Eq. apply (f_equal (fun l => cnt l self)) in Eq. rewrite cnt_del_first, Nat.eqb_refl in Eq.
        apply (count_occ_In Nat.eq_dec) in Hin. change (0 < cnt (linked_nodes D x) self) in Hin. lia. }
    assert (Hit : hit <-> held g self \/ exists t, points_to D self name t /\ held g t).
    { unfold hit. split.
      - intros (x & Hx & Hc). apply Hch in Hc. destruct Hc as [->|Hc]; [now left|]. right. now exists x.
      - intros [H|(t & Ht & H)]; [exists self|exists t]; split; auto; apply Hch; auto. }
    assert (Dec : hit \/ ~ hit).
    { rewrite Hit. destruct (held_dec g self) as [H|H]; [tauto|].
      destruct (named_target (attributes D self) name) as [t|] eqn:Et.
      - destruct (held_dec g t) as [H'|H']; [left; right; exists t; split; [now apply Htgt|easy]|]. right. intros [X|(t' & X & X')]; [easy|].
        apply Htgt in X. congruence.
      - right. intros [X|(t' & X & X')]; [easy|]. apply Htgt in X. congruence. }
    destruct Dec as [H|H].
    + right. split; [now apply P, Hit|now right].
    + left. rewrite <- Hit in Q. split; [now apply Q|]. intros [X|X]; [|easy]. apply H, Hit. left. now apply mut_held.
  - destruct (C1 eq_refl) as (P & Q). clear C1 C2. rewrite E in Q. destruct (held_mut_dec g self) as [H|H].
    + right. split; [now apply P|now left].
    + left. split; [now apply Q|]. intros [X|(x & Hx & Hc)]; [easy|].
      assert (D' = D) as ->; [|now apply changed_refl in Hc]. unfold remove_attribute in E. rewrite Eh in E. cbn in E. congruence.
Qed.

Lemma remove_all_bounds g self names : forall D, LInv D -> exists D', remove_all self names D = Ok D' /\ LInv D' /\ shrinks D D' /\
  let hit := exists x, held g x /\ changed D D' x in
  bounds hit (held_mut g self \/ hit) D' (g_remove_all g self names D).
Proof.
  induction names as [|nm names IH]; intros D I; cbn [remove_all g_remove_all].
  - exists D. split; [easy|]. split; [exact I|]. split; [apply shrinks_refl|]. apply bounds_ok. intros (x & _ & H). now apply changed_refl in H.
  - destruct (remove_bounds g self nm D I) as (D1 & -> & I1 & S1 & B1). cbn [bind].
    destruct (IH D1 I1) as (D2 & E2 & I2 & S2 & B2). exists D2. split; [exact E2|]. split; [exact I2|].
    split; [now apply (shrinks_trans D D1)|]. cbn zeta in *.
    apply (bounds_weaken _ _ _ _ _ _ (bounds_bind _ _ _ _ _ _ _ _ B1 B2)).
    + intros (x & Hx & Hc). apply (changed_trans D D1 D2 x S1 S2) in Hc. destruct Hc; [left; right|right]; now exists x.
    + intros [[H|(x & Hx & Hc)]|[H|(x & Hx & Hc)]]; [tauto| |tauto|]; right; exists x; (split; [exact Hx|]);
        apply (changed_trans D D1 D2 x S1 S2); tauto.
Qed.

Lemma unlink_bounds g node users : forall D, LInv D -> exists D', unlink_users node users D = Ok D' /\ LInv D' /\ shrinks D D' /\
  let hit := exists x, held g x /\ changed D D' x \/ held_mut g x /\ In x users in
  bounds hit hit D' (g_unlink_users g node users D).
Proof.
  induction users as [|u users IH]; intros D I; cbn [unlink_users g_unlink_users].
  - exists D. split; [easy|]. split; [exact I|]. split; [apply shrinks_refl|]. apply bounds_ok.
    intros (x & [(_ & H)|(_ & [])]). now apply changed_refl in H.
  - destruct (remove_all_bounds g u (svg_link_names_to node (attributes D u)) D I) as (D1 & -> & I1 & S1 & B1). cbn [bind].
    destruct (IH D1 I1) as (D2 & E2 & I2 & S2 & B2). exists D2. split; [exact E2|]. split; [exact I2|].
    split; [now apply (shrinks_trans D D1)|]. cbn zeta in *.
    apply (bounds_weaken _ _ _ _ _ _ (bounds_reading g u _ _ _ _ (bounds_bind _ _ _ _ _ _ _ _ B1 B2))).
    + intros (x & [(Hx & Hc)|(Hx & [<-|Hc])]); [|now left|].
      * right. apply (changed_trans D D1 D2 x S1 S2) in Hc. destruct Hc; [left|right]; exists x; tauto.
      * right. right. exists x. tauto.
    + intros [H|[[H|(x & Hx & Hc)]|(x & [(Hx & Hc)|(Hx & Hc)])]].
      * exists u. right. split; [easy|now left].
      * exists u. right. split; [easy|now left].
      * exists x. left. split; [easy|]. apply (changed_trans D D1 D2 x S1 S2). tauto.
      * exists x. left. split; [easy|]. apply (changed_trans D D1 D2 x S1 S2). tauto.
      * exists x. right. split; [easy|now right].
Qed.

Lemma links_bounds g node D : LInv D -> exists D', remove_links node D = Ok D' /\ LInv D' /\ shrinks D D' /\
  let hit := exists x, held g x /\ changed D D' x \/ held_mut g x /\ (x = node \/ In x (linked_nodes D node)) in
  bounds hit hit D' (g_remove_links g node D).
Proof.
  intros I. unfold remove_links, g_remove_links.
  destruct (remove_all_bounds g node (svg_link_names (attributes D node)) D I) as (D1 & -> & I1 & S1 & B1). cbn [bind].
  destruct (unlink_bounds g node (linked_nodes D1 node) D1 I1) as (D2 & E2 & I2 & S2 & B2). exists D2. split; [exact E2|].
  split; [exact I2|]. split; [now apply (shrinks_trans D D1)|]. cbn zeta in *.
  apply (bounds_weaken _ _ _ _ _ _ (bounds_reading g node _ _ _ _ (bounds_bind _ _ _ _ _ _ _ _ B1 (bounds_reading g node _ _ _ _ B2)))).
  - intros (x & [(Hx & Hc)|(Hx & [->|Hc])]); [|now left|].
    + apply (changed_trans D D1 D2 x S1 S2) in Hc. destruct Hc; [right; left|right; right; right]; exists x; tauto.
    + destruct (user_gone D D1 x node I I1 Hc) as [H|H].
      * right. right. right. exists x. tauto.
      * right. left. exists x. split; [now apply mut_held|easy].
  - intros [H|[[H|(x & Hx & Hc)]|[H|(x & [(Hx & Hc)|(Hx & Hc)])]]]; try (exists node; tauto).
    + exists x. left. split; [easy|]. apply (changed_trans D D1 D2 x S1 S2). tauto.
    + exists x. left. split; [easy|]. apply (changed_trans D D1 D2 x S1 S2). tauto.
    + exists x. right. split; [easy|]. right. now apply (S1 node).
Qed.

(* ---- detach *)
Lemma same_neighbours_dec D D' x : same_neighbours D D' x \/ ~ same_neighbours D D' x.
Proof.
  unfold same_neighbours. assert (H : forall a b : option nid, a = b \/ a <> b).
  { intros a b. destruct (onid_eqb a b) eqn:E; [left|right]; destruct a as [a|], b as [b|]; cbn in E; try easy.
    - apply Nat.eqb_eq in E. now subst.
    - intros [= ->]. now rewrite Nat.eqb_refl in E. }
  destruct (H (parent (lk D') x) (parent (lk D) x)), (H (first_child (lk D') x) (first_child (lk D) x)),
    (H (last_child (lk D') x) (last_child (lk D) x)), (H (next_sibling (lk D') x) (next_sibling (lk D) x)),
    (H (previous_sibling (lk D') x) (previous_sibling (lk D) x)); tauto.
Qed.
Lemma search (g : guards) (P : nid -> Prop) : (forall x, P x \/ ~ P x) -> (exists x, held g x /\ P x) \/ (forall x, held g x -> ~ P x).
Proof.
  intros Dec. assert (H : forall l, (exists x, In x l /\ P x) \/ forall x, In x l -> ~ P x).
  { induction l as [|y l [(x & Hx & Hp)|H]]; [right; easy|left; exists x; split; [now right|easy]|].
    destruct (Dec y); [left; exists y; split; [now left|easy]|]. right. intros x [<-|Hx]; [easy|now apply H]. }
  destruct (H (all_guards g)) as [(x & Hx & Hp)|Hn]; [left; exists x; split; [now apply held_all|easy]|].
  right. intros x Hx. apply Hn. now apply held_all.
Qed.
Lemma detach_bounds g n D F L' : Rep (lk D) F -> detach [] n (lk D) = Ok L' ->
  let hit := exists x, held g x /\ (x = n \/ ~ same_neighbours D (with_lk L' D) x) in
  bounds hit hit (with_lk L' D) (g_detach g n D).
Proof.
  intros R E hit. pose proof (moves_of g [n] D (fun G => detach G n (lk D)) (detach_guarded (all_guards g) n (lk D) F R)) as (_ & M).
  cbn beta in M. rewrite E in M. cbn [bind] in M. destruct (M _ eq_refl) as (M1 & M2). fold (g_detach g n D) in M1, M2.
  destruct (search g (fun x => x = n \/ ~ same_neighbours D (with_lk L' D) x)) as [(x & Hx & H)|H].
  - intros x. destruct (Nat.eq_dec x n); [tauto|]. destruct (same_neighbours_dec D (with_lk L' D) x); tauto.
  - right. split; [|now exists x]. apply M2. exists x. split; [exact Hx|]. cbn. destruct H; [left; left; congruence|tauto].
  - left. split; [|now intros (x & Hx & Hh); apply (H x Hx)]. apply M1. intros x Hx. specialize (H x Hx).
    destruct (same_neighbours_dec D (with_lk L' D) x); [|tauto]. split; [|easy]. intros [<-|[]]. apply H. now left.
Qed.

(* ---- the links of nodes outside of a tree while its lower nodes are pruned *)
Lemma prune_lower F n ts S x : wf_forest F -> tree_at F (T n ts) -> incl S (flat_map preorder ts) -> ~ In x (preorder (T n ts)) ->
  nav_same F (f_prune S F) x.
Proof.
  intros W Hat HS Hx. assert (Hn : ~ In n (flat_map preorder ts)).
  { pose proof (preorder_nodup F _ W Hat) as H. cbn in H. now inversion H. }
  assert (Hxs : mem x S = false) by (apply mem_not_In; intros H; apply Hx; right; now apply HS).
  assert (Hup : forall y, In y S -> exists p, parent_of F y = Some p /\ In p (preorder (T n ts))).
  { intros y Hy. apply HS in Hy. assert (H : In y (preorder (T n ts))) by now right. apply (preorder_iff F _ y W Hat) in H.
    inversion H as [E|? ? p Hp Ha]; [cbn [t_node] in E; subst y; contradiction|]. exists p. split; [exact Hp|].
    now apply (preorder_iff F _ p W Hat). }
  assert (Hch : children_of (f_prune S F) x = children_of F x).
  { cbn. rewrite Hxs. apply without_none. intros y Hy H. destruct (Hup y H) as (p & Hp & Hin). apply (wf_child F W) in Hy. congruence. }
  assert (Hsi : siblings_of (f_prune S F) x = siblings_of F x).
  { cbn. rewrite Hxs. apply without_none. intros y Hy H. destruct (Hup y H) as (p & Hp & Hin).
    destruct (wf_share F W x y Hy) as (_ & Hpx). rewrite Hp in Hpx. apply Hx. apply (preorder_iff F _ x W Hat).
    apply aos_up with p; [easy|]. now apply (preorder_iff F _ p W Hat). }
  unfold nav_same, fi, la, nx, pv. rewrite Hch, Hsi. cbn [parent_of f_prune]. rewrite Hxs. easy.
Qed.
Lemma nav_same_trans F F1 F2 x : nav_same F F1 x -> nav_same F F2 x <-> nav_same F1 F2 x.
Proof. unfold nav_same. intros (E1 & E2 & E3 & E4 & E5). rewrite E1, E2, E3, E4, E5. easy. Qed.
Lemma neighbours_nav D D' F F' x : Rep (lk D) F -> Rep (lk D') F' -> same_neighbours D D' x <-> nav_same F F' x.
Proof. intros R R'. exact (same_nav (lk D) (lk D') F F' x R R'). Qed.

Lemma finish_bounds g n D D' F : Rep (lk D) F -> remove_finish n D = Ok D' ->
  let hit := exists x, held g x /\ (x = n \/ ~ same_neighbours D D' x) in
  bounds hit hit D' (g_remove_finish g n D).
Proof.
  intros R E hit. unfold remove_finish in E. unfold g_remove_finish.
  destruct (detach [] n (lk D)) as [L'|p|] eqn:Ed; [|discriminate|discriminate]. cbn [bind] in E.
  pose proof (detach_bounds g n D F L' R Ed) as B. cbn zeta in B.
  assert (Hl : lk D' = L').
  { destruct (storage_key (with_lk L' D) n) as [k|]; [|injection E as <-; reflexivity].
    destruct (slab_remove _ k); cbn [bind] in E; [injection E as <-; reflexivity|discriminate|discriminate]. }
  apply (bounds_weaken _ _ _ _ _ _ (bounds_bind _ _ _ _ _ _ _ _ B (bounds_writing g n False False D' _ (or_introl (conj E (fun x => x)))))).
  - intros (x & Hx & [->|H]); [right; now left|left]. exists x. split; [exact Hx|]. right. unfold same_neighbours in *. cbn [lk with_lk]. now rewrite <- Hl.
  - intros [(x & Hx & [->|H])|[H|[]]]; [exists n|exists x|exists n]; (split; [easy|]); [now left| |now left]. right.
    unfold same_neighbours in *. cbn [lk with_lk] in H. now rewrite Hl.
Qed.

(* ---- the loop over the children *)
Lemma children_next_bounds g L it : bounds False (exists b, (c_back it = Some b \/ c_next it = Some b) /\ held_mut g b)
  (children_next L it) (g_children_next g L it).
Proof.
  unfold children_next, g_children_next, children_finished, g_children_finished.
  destruct (c_back it) as [b|] eqn:Eb; cbn [bind].
  - destruct (held_mut_dec g b) as [H|H].
    { right. rewrite reading_held by exact H. cbn [bind]. split; [easy|]. exists b. tauto. }
    rewrite reading_free by exact H. cbn [bind]. destruct (onid_eqb _ _); [now left|].
    destruct (c_next it) as [c|] eqn:Ec; [|now left]. destruct (held_mut_dec g c) as [H'|H'].
    + right. rewrite reading_held by exact H'. split; [easy|]. exists c. tauto.
    + rewrite reading_free by exact H'. now left.
  - now left.
Qed.

Definition loop_must (g : guards) (S : list nid) (D D' : dom) : Prop :=
  exists x, held g x /\ (In x S \/ changed D D' x) \/ held_mut g x /\ exists m, In m S /\ In x (linked_nodes D m).
Definition tree_hit (g : guards) (S : list nid) (D D' : dom) : Prop :=
  exists x, held g x /\ (In x S \/ changed D D' x \/ ~ same_neighbours D D' x) \/ held_mut g x /\ exists m, In m S /\ In x (linked_nodes D m).

Theorem remove_guarded g t : forall fuel D F, RInv D F -> tree_at F t -> length (preorder t) < fuel ->
  exists D', remove_rec fuel (t_node t) D = Ok D' /\ RInv D' (f_prune (preorder t) F) /\ shrinks D D' /\
    bounds (tree_hit g (preorder t) D D') (tree_hit g (preorder t) D D') D' (g_remove_rec fuel g (t_node t) D).
Proof.
  induction t as [n ts IH] using tree_ind'. intros fuel D F (R & I & Hs) Hat Hfuel.
  destruct fuel as [|fuel]; [lia|]. cbn [t_node remove_rec g_remove_rec].
  inversion Hat as [? ? E Hall]; subst.
  destruct (remove_links_spec n D I) as (D1 & E1 & Hf1 & I1 & _ & _).
  destruct (links_bounds g n D I) as (D1' & E1' & _ & Sh1 & B1). assert (D1' = D1) as -> by congruence. clear E1'.
  rewrite E1. cbn [bind].
  assert (R1 : Rep (lk D1) F) by (rewrite (fr_lk D D1 Hf1); exact R).
  assert (Hs1 : slab_ok (store D1) (storage_key D1)).
  { rewrite (fr_store D D1 Hf1). eapply slab_ok_ext; [|exact Hs]. apply (fr_key D D1 Hf1). }
  pose proof (r_wf _ _ R) as W.
  pose proof (preorder_nodup F (T n ts) W Hat) as Hnd. cbn [preorder] in Hnd.
  (* the loop over the children *)
  assert (Hloop : forall rest done, ts = done ++ rest ->
    forall fuel' D2, length rest < fuel' -> RInv D2 (f_prune (flat_map preorder done) F) ->
    exists D3, for_children lk fuel' (remove_rec fuel)
        (mkChildren (hd_error (map t_node rest)) (last_error (map t_node ts))) D2 = Ok D3 /\
      RInv D3 (f_prune (flat_map preorder ts) F) /\ shrinks D2 D3 /\
      bounds (loop_must g (flat_map preorder rest) D2 D3)
        (exists x, held g x /\ (In x (preorder (T n ts)) \/ changed D2 D3 x) \/
                   held_mut g x /\ exists m, In m (flat_map preorder rest) /\ In x (linked_nodes D2 m)) D3
        (g_for_children g lk fuel' (g_remove_rec fuel g)
          (mkChildren (hd_error (map t_node rest)) (last_error (map t_node ts))) D2)).
  { induction rest as [|c rest IHr]; intros done Ets fuel' D2 Hf' HI2.
    - rewrite app_nil_r in Ets. subst done. destruct fuel' as [|fuel']; [lia|]. cbn [for_children g_for_children].
      assert (Hno : ~ loop_must g (flat_map preorder []) D2 D2).
      { intros (x & [(_ & [[]|H])|(_ & m & [] & _)]). now apply changed_refl in H. }
      assert (Hnx : exists it, children_next (lk D2) (mkChildren (hd_error (map t_node [])) (last_error (map t_node ts))) = (None, it)).
      { unfold children_next, children_finished. cbn [c_back c_next map hd_error].
        destruct (last_error (map t_node ts)) as [b|] eqn:Eb; [|eexists; reflexivity].
        assert (Hb : In b (flat_map preorder ts)).
        { apply last_error_In, in_map_iff in Eb. destruct Eb as (t & <- & Ht).
          apply in_flat_map. exists t. split; [easy|apply preorder_self]. }
        assert (Hn : next_sibling (lk D2) b = None).
        { unfold next_sibling. rewrite (r_next _ _ (proj1 HI2)). cbn.
          rewrite (proj2 (mem_In b _) Hb). cbn. now rewrite Nat.eqb_refl. }
        rewrite Hn. cbn. eexists. reflexivity. }
      destruct Hnx as (it & Hnx). rewrite Hnx. exists D2. split; [easy|]. split; [exact HI2|]. split; [apply shrinks_refl|].
      pose proof (children_next_bounds g (lk D2) (mkChildren (hd_error (map t_node [])) (last_error (map t_node ts)))) as B.
      rewrite Hnx in B.
      apply (bounds_weaken _ _ _ _ _ _ (bounds_bind _ _ _ _ _ D2 _ (fun r => match r with
        | (Some c, it') => s <- g_remove_rec fuel g c D2 ;; g_for_children g lk fuel' (g_remove_rec fuel g) it' s
        | (None, _) => Ok D2 end) B (bounds_ok _ False D2 Hno))).
      + intros H. now right.
      + intros [(b & Hb & Hm)|[]]. exists b. left. split; [now apply mut_held|]. left. right.
        cbn [c_back c_next map hd_error] in Hb. destruct Hb as [Hb|Hb]; [|discriminate].
        apply last_error_In, in_map_iff in Hb. destruct Hb as (t & <- & Ht).
        apply in_flat_map. exists t. split; [easy|apply preorder_self].
    - destruct fuel' as [|fuel']; [lia|]. cbn [for_children g_for_children].
      assert (Hndts : NoDup (map t_node ts)) by (rewrite <- E; apply children_nodup; exact W).
      assert (Hin_n : ~ In n (flat_map preorder ts)) by now inversion Hnd.
      assert (Hdone_n : mem n (flat_map preorder done) = false).
      { apply mem_not_In. intros H. apply Hin_n. rewrite Ets, flat_map_app. apply in_app_iff. now left. }
      assert (Hsplit : NoDup (flat_map preorder done ++ preorder c ++ flat_map preorder rest)).
      { inversion Hnd; subst. rewrite flat_map_app in H2. cbn in H2. exact H2. }
      assert (Hdis_cd : forall x, In x (preorder c) -> ~ In x (flat_map preorder done)).
      { intros x Hx Hd. clear - Hsplit Hx Hd. induction (flat_map preorder done) as [|y l IHl]; [easy|].
        cbn in Hsplit. inversion Hsplit; subst. destruct Hd as [->|Hd]; [|auto].
        apply H1. apply in_app_iff. right. apply in_app_iff. now left. }
      assert (Hdis_rd : forall x, In x (map t_node (c :: rest)) -> ~ In x (flat_map preorder done)).
      { intros x Hx Hd. apply in_map_iff in Hx. destruct Hx as (t & <- & Ht).
        clear - Hsplit Ht Hd. induction (flat_map preorder done) as [|y l IHl]; [easy|].
        cbn in Hsplit. inversion Hsplit; subst. destruct Hd as [->|Hd]; [|auto].
        apply H1. apply in_app_iff. right. apply in_app_iff. destruct Ht as [->|Ht].
        - left. apply preorder_self.
        - right. apply in_flat_map. exists t. split; [easy|apply preorder_self]. }
      assert (Hch : children_of (f_prune (flat_map preorder done) F) n = map t_node (c :: rest)).
      { cbn. rewrite Hdone_n, E, Ets, map_app. unfold without. rewrite filter_app.
        replace (filter _ (map t_node done)) with (@nil nid).
        - cbn [app]. now apply without_none.
        - symmetry. clear. induction done as [|t done IHd]; [easy|]. cbn.
          replace (mem (t_node t) _) with true.
          + cbn. rewrite <- IHd at 1. 
            assert (Hw : forall l, (forall x, In x l -> In x (map t_node done)) ->
              filter (fun x => negb (mem x (preorder t ++ flat_map preorder done))) l = []).
            { clear. induction l as [|x l IHl]; intros H; [easy|]. cbn.
              replace (mem x (preorder t ++ flat_map preorder done)) with true.
              - cbn. apply IHl. intros y Hy. apply H. now right.
              - symmetry. apply mem_In, in_app_iff. right. specialize (H x (or_introl eq_refl)).
                apply in_map_iff in H. destruct H as (u & <- & Hu). apply in_flat_map. exists u.
                split; [easy|apply preorder_self]. }
            rewrite (Hw (map t_node done)); [|easy]. now rewrite IHd.
          + symmetry. apply mem_In, in_app_iff. left. apply preorder_self. }
      assert (HR2 : Rep (lk D2) (f_prune (flat_map preorder done) F)) by apply HI2.
      pose proof (children_good (lk D2) _ n HR2) as Hgood. rewrite Hch in Hgood.
      assert (Hlast : last_error (map t_node ts) = last_error (map t_node (c :: rest))).
      { rewrite Ets, map_app. unfold last_error. rewrite rev_app_distr.
        destruct (rev (map t_node (c :: rest))) eqn:Er; [|reflexivity].
        apply (f_equal (@length nid)) in Er. rewrite rev_length in Er. cbn in Er. lia. }
      destruct (last_error (map t_node (c :: rest))) as [b|] eqn:Eb.
      2:{ apply last_error_none in Eb. easy. }
      assert (Hnext : children_next (lk D2) (mkChildren (hd_error (map t_node (c :: rest))) (last_error (map t_node ts))) =
        (Some (t_node c), mkChildren (hd_error (map t_node rest)) (last_error (map t_node ts)))).
      { unfold children_next, children_finished. cbn [c_back c_next map hd_error].
        rewrite Hlast. rewrite (proj1 (proj2 Hgood) b Eb). cbn [onid_eqb].
        destruct (good_split _ _ _ [] (t_node c) (map t_node rest) Hgood eq_refl) as (Hnx & _).
        now rewrite Hnx. }
      pose proof (children_next_bounds g (lk D2) (mkChildren (hd_error (map t_node (c :: rest))) (last_error (map t_node ts)))) as Bn.
      rewrite Hnext in Bn. rewrite Hnext.
      (* remove the child *)
      assert (Hc_in : In c ts) by (rewrite Ets; apply in_app_iff; right; now left).
      rewrite Forall_forall in IH, Hall.
      assert (Hatc : tree_at (f_prune (flat_map preorder done) F) c).
      { apply tree_at_prune; [now apply Hall|exact Hdis_cd]. }
      assert (Hsz : length (preorder c) < fuel).
      { pose proof (kid_size (T n ts) c Hc_in). cbn [preorder length] in *. lia. }
      destruct (IH c Hc_in fuel D2 _ HI2 Hatc Hsz) as (D3 & -> & HI3 & Sh3 & B3). cbn [bind].
      specialize (IHr (done ++ [c])). rewrite <- app_assoc in IHr. cbn [app] in IHr.
      specialize (IHr Ets fuel' D3 ltac:(cbn in Hf'; lia)).
      rewrite flat_map_app in IHr. cbn [flat_map] in IHr. rewrite app_nil_r in IHr.
      assert (HI3' : RInv D3 (f_prune (flat_map preorder done ++ preorder c) F)).
      { destruct HI3 as (HR3 & HL3 & HS3). split; [|now split].
        eapply Rep_ext; [apply f_prune_prune|exact HR3]. }
      destruct (IHr HI3') as (D4 & E4 & HI4 & Sh4 & B4). exists D4. split; [exact E4|]. split; [exact HI4|].
      split; [now apply (shrinks_trans D2 D3)|].
      pose proof (bounds_bind _ _ _ _ _ _ _ _ B3 B4) as B34.
      pose proof (bounds_bind _ _ _ _ _ D4 _ (fun r => match r with
        | (Some c, it') => s <- g_remove_rec fuel g c D2 ;; g_for_children g lk fuel' (g_remove_rec fuel g) it' s
        | (None, _) => Ok D2 end) Bn B34) as B.
      assert (Hsub : forall x, In x (preorder c) -> In x (preorder (T n ts))).
      { intros x Hx. right. apply in_flat_map. now exists c. }
      apply (bounds_weaken _ _ _ _ _ _ B); clear B Bn B34 B3 B4.
      + intros (x & [(Hx & [Hp|Hc])|(Hx & m & Hp & Hu)]).
        * cbn [flat_map] in Hp. apply in_app_iff in Hp. right. destruct Hp as [Hp|Hp]; [left|right]; exists x; tauto.
        * right. apply (changed_trans D2 D3 D4 x Sh3 Sh4) in Hc. destruct Hc; [left|right]; exists x; tauto.
        * right. cbn [flat_map] in Hp. apply in_app_iff in Hp. destruct Hp as [Hp|Hp]; [left; exists x; right; split; [easy|now exists m]|].
          destruct (user_gone D2 D3 x m (proj1 (proj2 HI2)) (proj1 (proj2 HI3)) Hu) as [H|H].
          -- right. exists x. right. split; [easy|now exists m].
          -- left. exists x. left. split; [now apply mut_held|tauto].
      + intros [(x & Hb & Hm)|[(x & [(Hx & H)|(Hx & m & Hp & Hu)])|(x & [(Hx & [H|H])|(Hx & m & Hp & Hu)])]].
        * exists x. left. split; [now apply mut_held|]. left. right. cbn [c_back c_next map hd_error] in Hb. destruct Hb as [Hb|Hb].
          -- apply last_error_In, in_map_iff in Hb. destruct Hb as (t & <- & Ht).
             apply in_flat_map. exists t. split; [easy|apply preorder_self].
          -- injection Hb as <-. apply in_flat_map. exists c. split; [easy|apply preorder_self].
        * exists x. left. split; [easy|]. destruct H as [H|[H|H]]; [left; now apply Hsub| |].
          -- right. apply (changed_trans D2 D3 D4 x Sh3 Sh4). now left.
          -- left. destruct (in_dec Nat.eq_dec x (preorder (T n ts))) as [|Hn]; [easy|]. elim H.
             apply (neighbours_nav D2 D3 _ _ x HR2 (proj1 HI3')).
             assert (Hd : incl (flat_map preorder done) (flat_map preorder ts)).
             { intros y Hy. rewrite Ets, flat_map_app. apply in_app_iff. now left. }
             apply (nav_same_trans F); [now apply (prune_lower F n ts)|]. apply (prune_lower F n ts); [easy|easy| |easy].
             intros y Hy. apply in_app_iff in Hy. destruct Hy as [Hy|Hy]; [now apply Hd|]. apply in_flat_map. now exists c.
        * exists x. right. split; [easy|]. exists m. split; [|easy]. cbn [flat_map]. apply in_app_iff. now left.
        * exists x. left. split; [easy|now left].
        * exists x. left. split; [easy|right]. apply (changed_trans D2 D3 D4 x Sh3 Sh4). now right.
        * exists x. right. split; [easy|]. exists m. split; [cbn [flat_map]; apply in_app_iff; now right|]. now apply (Sh3 m). }
  assert (Hc0 : children (lk D1) n = mkChildren (hd_error (map t_node ts)) (last_error (map t_node ts))).
  { unfold children, first_child, last_child. now rewrite (r_first _ _ R1), (r_last _ _ R1), E. }
  rewrite Hc0.
  assert (Hkl : length ts < fuel).
  { pose proof (kids_length (T n ts)). cbn [t_kids preorder length] in *. lia. }
  destruct (Hloop ts [] eq_refl fuel D1 Hkl) as (D3 & E3 & (R3 & I3 & S3) & Sh3 & B3).
  { split; [|now split]. eapply Rep_ext; [apply forest_eq_sym, f_prune_nil|exact R1]. }
  rewrite E3. cbn [bind].
  assert (A3 : parent_of (f_prune (flat_map preorder ts) F) n <> Some n).
  { pose proof (tree_parent_neq F (T n ts) W Hat) as Hne. cbn in Hne |- *. now destruct (mem n _). }
  destruct (remove_finish_spec n D3 _ R3 A3 S3) as (D4 & E4 & R4 & S4 & Hfr & Hro & Hfields).
  exists D4. split; [exact E4|].
  assert (Hleaf : children_of (f_prune (flat_map preorder ts) F) n = []).
  { cbn. destruct (mem n _) eqn:Em; [easy|]. rewrite E. unfold without.
    assert (forall l, (forall x, In x l -> In x (map t_node ts)) ->
      filter (fun x => negb (mem x (flat_map preorder ts))) l = []).
    { induction l as [|x l IHl]; intros H; [easy|]. cbn.
      replace (mem x (flat_map preorder ts)) with true.
      - cbn. apply IHl. intros y Hy. apply H. now right.
      - symmetry. apply mem_In. specialize (H x (or_introl eq_refl)).
        apply in_map_iff in H. destruct H as (u & <- & Hu). apply in_flat_map. exists u.
        split; [easy|apply preorder_self]. }
    now apply H. }
  assert (Heq : forest_eq (f_detach n (f_prune (flat_map preorder ts) F)) (f_prune (preorder (T n ts)) F)).
  { eapply forest_eq_trans; [apply f_detach_leaf; exact Hleaf|].
    eapply forest_eq_trans; [apply f_prune_prune|]. apply f_prune_set. intros x. cbn.
    rewrite in_app_iff. cbn. tauto. }
  assert (R4' : Rep (lk D4) (f_prune (preorder (T n ts)) F)) by (eapply Rep_ext; [exact Heq|exact R4]).
  split.
  { split; [exact R4'|]. split; [|exact S4]. apply (LInv_ext D3 D4 I3); intros m; apply Hfields. }
  assert (Sh4 : shrinks D3 D4).
  { intros m. destruct (Hfields m) as (_ & _ & _ & _ & -> & -> & _). split; apply shorter_refl. }
  assert (Sh13 : shrinks D D3) by now apply (shrinks_trans D D1).
  split; [now apply (shrinks_trans D D3)|].
  assert (Hch34 : forall x, ~ changed D3 D4 x).
  { intros x [H|H]; apply H; apply Hfields. }
  assert (Hch : forall x, changed D D4 x <-> changed D D1 x \/ changed D1 D3 x).
  { intros x. rewrite (changed_trans D D3 D4 x Sh13 Sh4), (changed_trans D D1 D3 x Sh1 Sh3). specialize (Hch34 x). tauto. }
  assert (Hnav : forall x, ~ In x (preorder (T n ts)) -> same_neighbours D D4 x <-> same_neighbours D3 D4 x).
  { intros x Hx. rewrite (neighbours_nav D D4 _ _ x R R4'), (neighbours_nav D3 D4 _ _ x R3 R4').
    apply nav_same_trans. apply (prune_lower F n ts); [easy|easy|apply incl_refl|easy]. }
  pose proof (finish_bounds g n D3 D4 _ R3 E4) as B4. cbn zeta in B1, B4.
  rewrite <- Hc0 in B3. unfold g_children.
  pose proof (bounds_bind _ _ _ _ _ _ _ (fun D => g_remove_finish g n D) B3 B4) as B34.
  pose proof (bounds_bind _ _ _ _ _ _ _ (fun it => D <- g_for_children g lk fuel (g_remove_rec fuel g) it D1 ;; g_remove_finish g n D)
    (bounds_reading g n False False _ _ (bounds_ok _ _ (children (lk D1) n) (fun x => x))) B34) as B234.
  pose proof (bounds_bind _ _ _ _ _ _ _ (fun D => it <- reading g n (Ok (children (lk D) n)) ;;
    D <- g_for_children g lk fuel (g_remove_rec fuel g) it D ;; g_remove_finish g n D) B1 B234) as B.
  apply (bounds_weaken _ _ _ _ _ _ B); clear B B1 B3 B4 B34 B234.
  - intros (x & [(Hx & H)|(Hx & m & Hm & Hu)]).
    + destruct (in_dec Nat.eq_dec x (preorder (T n ts))) as [Hp|Hp].
      { cbn [preorder] in Hp. destruct Hp as [<-|Hp]; [right; right; right; exists n; tauto|].
        right. right. left. exists x. tauto. }
      destruct H as [H|[H|H]]; [easy| |].
      * apply Hch in H. destruct H as [H|H]; [left; exists x; tauto|]. right. right. left. exists x. tauto.
      * right. right. right. exists x. split; [easy|]. right. now rewrite <- Hnav.
    + cbn [preorder] in Hm. destruct Hm as [<-|Hm]; [left; exists x; tauto|].
      destruct (user_gone D D1 x m I I1 Hu) as [H|H]; [|left; exists x; left; split; [now apply mut_held|easy]].
      right. right. left. exists x. right. split; [easy|now exists m].
  - assert (Hself : held g n -> tree_hit g (preorder (T n ts)) D D4) by (intros H; exists n; left; split; [easy|left; now left]).
    intros [(x & [(Hx & H)|(Hx & [->|H])])|[[H|[]]|[(x & [(Hx & [H|H])|(Hx & m & Hm & H)])|(x & Hx & [->|H])]]];
      try (apply Hself; first [assumption|apply mut_held; assumption]).
    + exists x. left. split; [easy|]. right. left. apply Hch. now left.
    + exists x. right. split; [easy|]. exists n. split; [now left|easy].
    + exists x. left. tauto.
    + exists x. left. split; [easy|]. right. left. apply Hch. now right.
    + exists x. right. split; [easy|]. exists m. split; [now right|]. now apply (Sh1 m).
    + destruct (in_dec Nat.eq_dec x (preorder (T n ts))) as [Hp|Hp]; [exists x; left; tauto|].
      exists x. left. split; [easy|]. right. right. now rewrite Hnav.
Qed.
