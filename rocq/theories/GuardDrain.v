(* Proofs about drain and the drop of a document under guards. *)
From Coq Require Import List Bool PeanoNat NArith Lia.
From Verif Require Import Base Ids Links Tree Iter ForestSpec TreeSpec ListFacts TreeProofs ForestFacts IterSpec IterProofs
  PruneFacts TreeApi Data Attrs AttrFacts Slab SlabProofs NodeApi AttrSpec Doc DocSpec History LinkProofs RemoveProofs InvProofs
  DrainProofs DropProofs DropExact CopyProofs HistoryProofs ApiProofs Guards GuardSpec GuardTree GuardProofs GuardDoc GuardDocSpec GuardDocProofs.
Import ListNotations.

(* ---- neighbours when some nodes are taken out of the lists *)
Lemma hd_without S l : hd_error (without S l) = hd_error l <-> forall y, hd_error l = Some y -> ~ In y S.
Proof.
  split.
  - intros E y H. rewrite <- E in H. apply hd_error_In, in_without in H. apply H.
  - intros H. destruct l as [|y l]; [easy|]. cbn. specialize (H y eq_refl). apply mem_not_In in H. now rewrite H.
Qed.
Lemma without_rev S l : without S (rev l) = rev (without S l).
Proof.
  unfold without. induction l as [|x l IH]; [easy|]. cbn. rewrite filter_app, IH. cbn. destruct (negb (mem x S)); [easy|]. now rewrite app_nil_r.
Qed.
Lemma succ_without S l x : NoDup l -> In x l -> ~ In x S ->
  succ_in x (without S l) = succ_in x l <-> forall y, succ_in x l = Some y -> ~ In y S.
Proof.
  intros N Hx HS. destruct (in_split x l Hx) as (l1 & l2 & ->). rewrite (succ_in_at x l1 l2 N).
  assert (E : without S (l1 ++ x :: l2) = without S l1 ++ x :: without S l2).
  { unfold without. rewrite filter_app. cbn [filter]. apply mem_not_In in HS. rewrite HS. reflexivity. }
  assert (N' : NoDup (without S (l1 ++ x :: l2))) by (apply NoDup_filter; exact N). rewrite E in N' |- *.
  rewrite (succ_in_at x _ _ N'). apply hd_without.
Qed.
Lemma pred_without S l x : NoDup l -> In x l -> ~ In x S ->
  pred_in x (without S l) = pred_in x l <-> forall y, pred_in x l = Some y -> ~ In y S.
Proof.
  intros N Hx HS. unfold pred_in. rewrite <- without_rev. apply succ_without; [now apply NoDup_rev|now apply -> in_rev|exact HS].
Qed.
Lemma last_without S l : last_error (without S l) = last_error l <-> forall y, last_error l = Some y -> ~ In y S.
Proof. unfold last_error. rewrite <- without_rev. apply hd_without. Qed.

Record taken_out (S : list nid) (F F' : forest) (x : nid) : Prop := {
  to_parent   : parent_of F' x = parent_of F x;
  to_siblings : siblings_of F' x = without S (siblings_of F x);
  to_children : children_of F' x = without S (children_of F x) }.
Definition beside (F : forest) (x y : nid) : Prop := nx F x = Some y \/ pv F x = Some y \/ fi F x = Some y \/ la F x = Some y.
Lemma taken_nav S F F' x : wf_forest F -> ~ In x S -> taken_out S F F' x ->
  nav_same F F' x <-> forall y, beside F x y -> ~ In y S.
Proof.
  intros W Hx [H1 H2 H3]. unfold nav_same, beside. rewrite H1.
  pose proof (succ_without S _ x (wf_nodup F W x) (wf_self F W x) Hx) as E1.
  pose proof (pred_without S _ x (wf_nodup F W x) (wf_self F W x) Hx) as E2.
  pose proof (hd_without S (children_of F x)) as E3. pose proof (last_without S (children_of F x)) as E4.
  rewrite <- H2 in E1, E2. rewrite <- H3 in E3, E4.
  change (nx F' x = nx F x <-> forall y, nx F x = Some y -> ~ In y S) in E1.
  change (pv F' x = pv F x <-> forall y, pv F x = Some y -> ~ In y S) in E2.
  change (fi F' x = fi F x <-> forall y, fi F x = Some y -> ~ In y S) in E3.
  change (la F' x = la F x <-> forall y, la F x = Some y -> ~ In y S) in E4.
  rewrite E1, E2, E3, E4. split.
  - intros (_ & A & B & C & D) y [H|[H|[H|H]]]; auto.
  - intros H. split; [easy|]. split; [|split; [|split]]; intros y Hy; apply H; tauto.
Qed.
Lemma taken_trans S1 S2 F F1 F2 x : taken_out S1 F F1 x -> taken_out S2 F1 F2 x -> taken_out (S1 ++ S2) F F2 x.
Proof.
  intros [A1 A2 A3] [B1 B2 B3]. split; [congruence| |].
  - now rewrite B2, A2, without_without.
  - now rewrite B3, A3, without_without.
Qed.
Lemma nav_beside F F' x : nav_same F F' x -> forall y, beside F x y <-> beside F' x y.
Proof. unfold nav_same, beside. intros (_ & -> & -> & -> & ->) y. easy. Qed.
Lemma nav_steps S1 S2 F F1 F2 x : wf_forest F -> wf_forest F1 -> ~ In x (S1 ++ S2) -> taken_out S1 F F1 x -> taken_out S2 F1 F2 x ->
  nav_same F F2 x <-> nav_same F F1 x /\ nav_same F1 F2 x.
Proof.
  intros W W1 Hx T1 T2. pose proof Hx as Hx0. rewrite in_app_iff in Hx. split.
  - intros H. assert (H1 : nav_same F F1 x).
    { apply (taken_nav S1 F F1 x W (fun h => Hx (or_introl h)) T1). intros y Hy Hin.
      apply (proj1 (taken_nav (S1 ++ S2) F F2 x W Hx0 (taken_trans _ _ _ _ _ _ T1 T2)) H y Hy). apply in_app_iff. now left. }
    split; [exact H1|]. now apply (nav_same_trans F F1 F2 x H1).
  - intros (H1 & H2). now apply (nav_same_trans F F1 F2 x H1).
Qed.
Lemma prune_taken S F x : ~ In x S -> taken_out S F (f_prune S F) x.
Proof. intros H. apply mem_not_In in H. split; cbn; now rewrite H. Qed.
Lemma detach_taken n F x : x <> n -> taken_out [n] F (f_detach n F) x.
Proof. intros H. apply Nat.eqb_neq in H. split; cbn; rewrite ?H; [easy| |]; now rewrite without_single. Qed.
Lemma detach_all_taken l F x : ~ In x l -> taken_out l F (detach_all l F) x.
Proof. intros H. apply mem_not_In in H. destruct (detach_all_spec l F x) as (A & B & C). rewrite H in A, B. now split. Qed.

(* ---- the drop of a document *)
Lemma detach_refused g n D F : Rep (lk D) F -> detach [] n (lk D) = Panic PBorrow -> g_detach g n D = Panic PBorrow.
Proof.
  intros R E. pose proof (moves_of g [n] D (fun G => detach G n (lk D)) (detach_guarded (all_guards g) n (lk D) F R)) as (M & _).
  cbn beta in M. rewrite E in M. cbn [bind] in M. exact (M _ eq_refl).
Qed.
Definition drop_hit (g : guards) (l : list nid) (D D' : dom) : Prop := exists x, held g x /\ (In x l \/ ~ same_neighbours D D' x).
Lemma drop_bounds g : forall l D F, Rep (lk D) F ->
  (drop_loop l D = Panic PBorrow -> g_drop_loop g l D = Panic PBorrow) /\
  (forall D', drop_loop l D = Ok D' -> bounds (drop_hit g l D D') (drop_hit g l D D') D' (g_drop_loop g l D)).
Proof.
  induction l as [|n l IH]; intros D F R.
  - split; [discriminate|]. intros D' [= <-]. apply bounds_ok. intros (x & _ & [[]|H]). now apply H.
  - cbn [drop_loop g_drop_loop]. set (D1 := modify n (set_linked []) (modify n (set_attrs (attrs_clear (attributes D n))) D)).
    pose proof (detach_refines [] n (lk D1) F R) as HD. change (mem n []) with false in HD. cbn [orb] in HD.
    destruct (existsb (fun x => mem x [n]) (adjoining F n)) eqn:Ex.
    + rewrite HD. cbn [bind]. split; [|discriminate]. intros _. rewrite (detach_refused g n D1 F R HD). cbn [bind].
      unfold writing. now destruct (mem n _).
    + destruct HD as (L & E & RL & _). rewrite E. cbn [bind].
      pose proof (detach_bounds g n D1 F L R E) as B1. cbn zeta in B1.
      destruct (IH (with_lk L D1) (f_detach n F) RL) as (P & Q). split.
      * intros H. specialize (P H). destruct B1 as [(-> & _)|(-> & _)]; cbn [bind]; [rewrite P|]; unfold writing; now destruct (mem n _).
      * intros D' H. specialize (Q D' H).
        destruct (drop_loop_exact l (with_lk L D1) (f_detach n F) RL) as [(X & _)|(D2 & X & _ & R2 & _)]; [congruence|].
        assert (D2 = D') as -> by congruence. clear X.
        apply (bounds_weaken _ _ _ _ _ _ (bounds_writing g n _ _ _ _ (bounds_bind _ _ _ _ _ _ _ (g_drop_loop g l) B1 Q))).
        -- intros (x & Hx & Hd). destruct (in_dec Nat.eq_dec x (n :: l)) as [[<-|Hin]|Hn]; [now left|right; right; exists x; tauto|].
           destruct Hd as [Hd|Hd]; [easy|]. right.
           destruct (same_neighbours_dec D1 (with_lk L D1) x) as [H1|H1]; [|left; exists x; tauto].
           right. exists x. split; [easy|]. right. intros H2. apply Hd.
           apply (neighbours_nav D D' F (detach_all l (f_detach n F)) x R R2).
           apply (nav_steps [n] l F (f_detach n F) _ x (r_wf _ _ R) (r_wf _ _ RL)).
           ++ cbn. cbn in Hn. tauto.
           ++ apply detach_taken. intros ->. apply Hn. now left.
           ++ apply detach_all_taken. intros H3. apply Hn. now right.
           ++ split; [now apply (neighbours_nav D1 (with_lk L D1) F _ x R RL)|now apply (neighbours_nav (with_lk L D1) D' _ _ x RL R2)].
        -- intros H3. assert (G : forall x, held g x -> In x (n :: l) \/ (~ In x (n :: l) /\ ~ same_neighbours D D' x) -> drop_hit g (n :: l) D D').
           { intros x Hx Hc. exists x. split; [easy|]. tauto. }
           assert (S : forall x, ~ In x (n :: l) -> same_neighbours D D' x ->
             same_neighbours D1 (with_lk L D1) x /\ same_neighbours (with_lk L D1) D' x).
           { intros x Hx Hs. apply (neighbours_nav D D' F (detach_all l (f_detach n F)) x R R2) in Hs.
             apply (nav_steps [n] l F (f_detach n F) _ x (r_wf _ _ R) (r_wf _ _ RL)) in Hs.
             - split; [now apply (neighbours_nav D1 (with_lk L D1) F _ x R RL)|now apply (neighbours_nav (with_lk L D1) D' _ _ x RL R2)].
             - cbn. cbn in Hx. tauto.
             - apply detach_taken. intros ->. apply Hx. now left.
             - apply detach_all_taken. intros H4. apply Hx. now right. }
           destruct H3 as [H3|[(x & Hx & H3)|(x & Hx & H3)]]; [apply (G n H3); left; now left| |];
             apply (G x Hx); destruct (in_dec Nat.eq_dec x (n :: l)) as [|Hn]; try tauto; right; (split; [easy|]); intros Hs;
             destruct (S x Hn Hs) as (S1 & S2).
           ++ destruct H3 as [->|H3]; [apply Hn; now left|easy].
           ++ destruct H3 as [H3|H3]; [apply Hn; now right|easy].
Qed.

(* ---- removing in several steps *)
Lemma node_bounds g D F t : InvF D F -> tree_at F t -> t_node t < fresh D ->
  exists D', remove_node (t_node t) D = Ok D' /\ InvF D' (f_prune (preorder t) F) /\ removed (preorder t) D D' /\ shrinks D D' /\
    bounds (tree_hit g (preorder t) D D') (tree_hit g (preorder t) D D') D' (g_remove_node g (t_node t) D).
Proof.
  intros I Ht Hn. destruct (remove_node_spec D F t I Ht Hn) as (D' & E & I' & Hr).
  destruct (remove_guarded g t (enough D) D F) as (D2 & E2 & _ & Sh & B).
  - split; [apply I|]. split; apply I.
  - easy.
  - unfold enough. pose proof (tree_size D F t I Ht Hn). lia.
  - unfold remove_node in E. assert (D2 = D') as -> by congruence. exists D'. easy.
Qed.
Lemma tree_hit_none g D : ~ tree_hit g [] D D.
Proof.
  intros (x & [(_ & [[]|[H|H]])|(_ & m & [] & _)]); [now apply changed_refl in H|now apply H].
Qed.
Lemma tree_hit_trans g S1 S2 D D1 D2 F : shrinks D D1 -> shrinks D1 D2 -> InvF D F -> InvF D1 (f_prune S1 F) ->
  InvF D2 (f_prune S2 (f_prune S1 F)) ->
  tree_hit g (S1 ++ S2) D D2 <-> tree_hit g S1 D D1 \/ tree_hit g S2 D1 D2.
Proof.
  intros H1 H2 I I1 I2. pose proof (iv_rep _ _ I) as R. pose proof (iv_rep _ _ I1) as R1. pose proof (iv_rep _ _ I2) as R2.
  assert (N : forall x, ~ In x (S1 ++ S2) -> same_neighbours D D2 x <-> same_neighbours D D1 x /\ same_neighbours D1 D2 x).
  { intros x Hx. rewrite (neighbours_nav _ _ _ _ x R R2), (neighbours_nav _ _ _ _ x R R1), (neighbours_nav _ _ _ _ x R1 R2).
    apply (nav_steps S1 S2 F _ _ x (r_wf _ _ R) (r_wf _ _ R1) Hx); apply prune_taken; intros H; apply Hx, in_app_iff; tauto. }
  split.
  - intros (x & [(Hx & H)|(Hx & m & Hm & Hu)]).
    + destruct (in_dec Nat.eq_dec x (S1 ++ S2)) as [Hin|Hn].
      { apply in_app_iff in Hin. destruct Hin; [left|right]; exists x; tauto. }
      destruct H as [H|[H|H]]; [easy| |].
      * apply (changed_trans D D1 D2 x H1 H2) in H. destruct H; [left|right]; exists x; tauto.
      * destruct (same_neighbours_dec D D1 x); [|left; exists x; tauto]. right. exists x. left. split; [easy|]. right. right.
        intros X. apply H. now apply N.
    + apply in_app_iff in Hm. destruct Hm as [Hm|Hm]; [left; exists x; right; split; [easy|now exists m]|].
      destruct (user_gone D D1 x m (iv_link _ _ I) (iv_link _ _ I1) Hu).
      * right. exists x. right. split; [easy|now exists m].
      * left. exists x. left. split; [now apply mut_held|tauto].
  - assert (G : forall x, held g x -> In x (S1 ++ S2) \/ (~ In x (S1 ++ S2) -> changed D D2 x \/ ~ same_neighbours D D2 x) -> tree_hit g (S1 ++ S2) D D2).
    { intros x Hx H. exists x. left. split; [easy|]. destruct (in_dec Nat.eq_dec x (S1 ++ S2)); tauto. }
    intros [(x & [(Hx & H)|(Hx & m & Hm & Hu)])|(x & [(Hx & H)|(Hx & m & Hm & Hu)])].
    + apply (G x Hx). rewrite in_app_iff. destruct H as [H|[H|H]]; [tauto| |].
      * right. intros _. left. apply (changed_trans D D1 D2 x H1 H2). now left.
      * right. intros Hn. right. rewrite <- in_app_iff in Hn. rewrite (N x Hn). tauto.
    + exists x. right. split; [easy|]. exists m. split; [apply in_app_iff; now left|easy].
    + apply (G x Hx). rewrite in_app_iff. destruct H as [H|[H|H]]; [tauto| |].
      * right. intros _. left. apply (changed_trans D D1 D2 x H1 H2). now right.
      * right. intros Hn. right. rewrite <- in_app_iff in Hn. rewrite (N x Hn). tauto.
    + exists x. right. split; [easy|]. exists m. split; [apply in_app_iff; now right|]. now apply (H1 m).
Qed.

(* ---- drain *)
Definition drain_hit (g : guards) (V S : list nid) (D D' : dom) : Prop :=
  (exists x, held_mut g x /\ In x V) \/ tree_hit g S D D'.
Theorem drain_loop_bounds g f p : forall fuel ts D F k,
  length (flat_map preorder ts) < fuel ->
  InvF D F -> Forall (tree_at F) ts -> at_head F ts -> NoDup (flat_map preorder ts) ->
  (forall x, In x (flat_map preorder ts) -> x < fresh D) ->
  (forall S D', removed S D D' -> forall x, In x (flat_map preorder ts) -> ~ In x S -> f D' x = p x) ->
  let S := flat_map preorder (flat_map (maximal p) ts) in
  exists D', drain_loop fuel f (hd_error (map t_node ts)) (D, k) =
       Ok (D', k + length (flat_map (maximal p) ts)) /\
    InvF D' (f_prune S F) /\ removed S D D' /\ shrinks D D' /\
    bounds (drain_hit g (flat_map preorder ts) S D D') (drain_hit g (flat_map preorder ts) S D D')
      (D', k + length (flat_map (maximal p) ts)) (g_drain_loop fuel g f (hd_error (map t_node ts)) (D, k)).
Proof.
  induction fuel as [|fuel IH]; intros ts D F k Hfuel I Hall Hhd Hnd Hlt Hst; [lia|].
  destruct ts as [|t ts]; cbn zeta.
  { cbn. exists D. rewrite Nat.add_0_r. split; [easy|].
    split; [eapply InvF_ext; [|exact I]; apply forest_eq_sym, f_prune_nil|]. split; [apply removed_nil|].
    split; [apply shrinks_refl|]. apply bounds_ok. intros [(x & _ & [])|H]. now apply tree_hit_none in H. }
  pose proof (r_wf _ _ (iv_rep D F I)) as W.
  cbn [flat_map] in Hnd, Hlt, Hfuel. destruct Hhd as (pre & Hsib).
  inversion Hall as [|? ? Ht Hts]; subst.
  assert (Hdisj : forall x, In x (preorder t) -> ~ In x (flat_map preorder ts))
    by (intros x; now apply NoDup_app_disj).
  assert (Hndts : NoDup (flat_map preorder ts)) by now apply NoDup_app_r in Hnd.
  assert (Hself : In (t_node t) (preorder t)) by apply preorder_self.
  pose proof (wf_nodup F W (t_node t)) as Hns. rewrite Hsib in Hns. cbn [map] in Hsib, Hns.
  (* the trees after t survive the removal of any part of t *)
  assert (Hafter : forall S, (forall x, In x S -> In x (preorder t)) ->
    Forall (tree_at (f_prune S F)) ts /\
    (at_head (f_prune S F) ts) /\
    (~ In (t_node t) S -> siblings_of (f_prune S F) (t_node t) = without S pre ++ t_node t :: map t_node ts)).
  { intros S HS.
    assert (Hout : forall x, In x (map t_node ts) -> ~ In x S).
    { intros x Hx Hin. apply HS in Hin. apply (Hdisj x Hin). apply in_map_iff in Hx. destruct Hx as (c & <- & Hc).
      apply in_flat_map. exists c. split; [easy|apply preorder_self]. }
    split; [|split].
    - rewrite Forall_forall in Hts |- *. intros c Hc. apply tree_at_prune; [now apply Hts|].
      intros x Hx Hin. apply HS in Hin. apply (Hdisj x Hin). apply in_flat_map. now exists c.
    - pose proof (siblings_hd F (t_node t) ts pre _ W Hsib eq_refl) as Hh. destruct ts as [|r ts']; [easy|].
      exists (without S (pre ++ [t_node t])). cbn [f_prune siblings_of].
      replace (mem (t_node r) S) with false.
      2:{ symmetry. apply mem_not_In, Hout. now left. }
      rewrite Hh. unfold without at 1. rewrite filter_app. f_equal.
      change (filter (fun x => negb (mem x S))) with (without S). now apply without_none.
    - intros Hn. cbn [f_prune siblings_of]. replace (mem (t_node t) S) with false by (symmetry; now apply mem_not_In).
      rewrite Hsib. unfold without at 1. rewrite filter_app. f_equal.
      change (filter (fun x => negb (mem x S))) with (without S). apply without_none.
      intros x [<-|Hx]; [easy|]. now apply Hout. }
  cbn [map hd_error drain_loop g_drain_loop fst snd].
  replace (f D (t_node t)) with (p (t_node t)).
  2:{ symmetry. apply (Hst [] D (removed_nil D)); [|easy]. cbn [flat_map]. apply in_app_iff. now left. }
  destruct (p (t_node t)) eqn:Ep.
  - (* t is removed *)
    assert (Hnx : next_sibling (lk D) (t_node t) = hd_error (map t_node ts)).
    { unfold next_sibling. rewrite (r_next _ _ (iv_rep D F I)), Hsib. now apply succ_in_at. }
    rewrite Hnx.
    destruct (node_bounds g D F t I Ht) as (D1 & -> & I1 & Hr1 & Sh1 & B1).
    { apply Hlt, in_app_iff. now left. }
    cbn [bind]. destruct (Hafter (preorder t)) as (Hts1 & Hhd1 & _); [easy|].
    destruct (IH ts D1 (f_prune (preorder t) F) (S k)) as (D2 & E2 & I2 & Hr2 & Sh2 & B2); try easy.
    + rewrite app_length in Hfuel. destruct t. cbn in Hfuel. lia.
    + intros x Hx. rewrite (rv_fresh _ _ _ Hr1). apply Hlt, in_app_iff. now right.
    + intros S D' HS x Hx HxS.
      apply (Hst (preorder t ++ S) D'); [now apply (removed_app _ _ D D1)| |].
      * cbn [flat_map]. apply in_app_iff. now right.
      * rewrite in_app_iff. intros [H|H]; [|easy]. now apply (Hdisj x).
    + rewrite E2. destruct t as [n kids]. cbn [t_node] in Ep. cbn [flat_map maximal]. rewrite Ep. cbn [app length flat_map].
      exists D2. split; [do 2 f_equal; lia|].
      assert (I2' : InvF D2 (f_prune (preorder (T n kids) ++ flat_map preorder (flat_map (maximal p) ts)) F)).
      { eapply InvF_ext; [|exact I2]. apply f_prune_prune. }
      split; [exact I2'|]. split; [now apply (removed_app _ _ D D1)|]. split; [now apply (shrinks_trans D D1)|].
      replace (k + Datatypes.S (length (flat_map (maximal p) ts))) with (Datatypes.S k + length (flat_map (maximal p) ts)) by lia.
      pose proof (tree_hit_trans g _ _ D D1 D2 F Sh1 Sh2 I I1 I2) as HT.
      apply (bounds_weaken _ _ _ _ _ _ (bounds_reading g n _ _ _ _
        (bounds_bind _ _ _ _ _ _ _ (fun D => g_drain_loop fuel g f (hd_error (map t_node ts)) (D, Datatypes.S k)) B1 B2))); cbn [t_node] in *.
      * intros [(x & Hx & Hin)|H].
        -- cbn [flat_map] in Hin. apply in_app_iff in Hin. right. destruct Hin as [Hin|Hin].
           ++ left. exists x. left. split; [now apply mut_held|]. now left.
           ++ right. left. exists x. tauto.
        -- apply HT in H. unfold drain_hit. tauto.
      * intros [H|[H|[(x & Hx & Hin)|H]]].
        -- left. exists n. split; [easy|]. now left.
        -- right. apply HT. now left.
        -- left. exists x. split; [easy|]. cbn [flat_map]. apply in_app_iff. now right.
        -- right. apply HT. now right.
  - (* t is kept *)
    set (kids := t_kids t). set (S1 := flat_map preorder (flat_map (maximal p) kids)).
    assert (Hkids : children_of F (t_node t) = map t_node kids) by (apply tree_at_children; easy).
    assert (Hpre : preorder t = t_node t :: flat_map preorder kids) by (destruct t; easy).
    assert (Hmax : maximal p t = flat_map (maximal p) kids) by (destruct t; cbn in *; now rewrite Ep).
    assert (Hkat : Forall (tree_at F) kids) by (destruct Ht; easy).
    assert (HS1 : forall x, In x S1 -> In x (flat_map preorder kids)) by (intros x; apply maximals_sub).
    assert (Hnot : ~ In (t_node t) S1).
    { intros H. apply HS1 in H. pose proof (preorder_nodup F t W Ht) as Hn. rewrite Hpre in Hn. now inversion Hn. }
    assert (H1 : exists D1, (if has_children (lk D) (t_node t)
                  then drain_loop fuel f (first_child (lk D) (t_node t)) (D, k)
                  else Ok (D, k)) = Ok (D1, k + length (flat_map (maximal p) kids)) /\
                 InvF D1 (f_prune S1 F) /\ removed S1 D D1 /\ shrinks D D1 /\
                 bounds (drain_hit g (flat_map preorder kids) S1 D D1)
                   (held_mut g (t_node t) \/ drain_hit g (flat_map preorder kids) S1 D D1)
                   (D1, k + length (flat_map (maximal p) kids))
                   (if has_children (lk D) (t_node t)
                    then reading g (t_node t) (g_drain_loop fuel g f (first_child (lk D) (t_node t)) (D, k))
                    else Ok (D, k))).
    { unfold has_children, first_child. rewrite (r_first _ _ (iv_rep D F I)), Hkids.
      destruct (hd_error (map t_node kids)) as [c|] eqn:Em.
      - rewrite <- Em. destruct (IH kids D F k) as (D1 & E1 & I1 & Hr1 & Sh1 & B1); try easy.
        + rewrite app_length, Hpre in Hfuel. cbn in Hfuel. lia.
        + unfold at_head. destruct kids as [|c0 kids']; [easy|]. exists []. cbn [app]. rewrite <- Hkids.
          apply child_siblings; [easy|]. rewrite Hkids. now left.
        + pose proof (preorder_nodup F t W Ht) as Hn. rewrite Hpre in Hn. now inversion Hn.
        + intros x Hx. apply Hlt, in_app_iff. left. rewrite Hpre. now right.
        + intros S D' HS x Hx. apply (Hst S D' HS). cbn [flat_map]. apply in_app_iff. left. rewrite Hpre. now right.
        + exists D1. do 4 (split; [easy|]). apply (bounds_weaken _ _ _ _ _ _ (bounds_reading g (t_node t) _ _ _ _ B1)); tauto.
      - assert (Ek : kids = []) by (destruct kids; [easy|discriminate]).
        unfold S1. rewrite Ek. cbn. exists D. rewrite Nat.add_0_r. split; [easy|].
        split; [eapply InvF_ext; [|exact I]; apply forest_eq_sym, f_prune_nil|]. split; [apply removed_nil|].
        split; [apply shrinks_refl|]. apply bounds_ok. intros [(x & _ & [])|H]. now apply tree_hit_none in H. }
    destruct H1 as (D1 & -> & I1 & Hr1 & Sh1 & B1). cbn [bind fst].
    destruct (Hafter S1) as (Hts1 & Hhd1 & Hsib1).
    { intros x Hx. rewrite Hpre. right. now apply HS1. }
    assert (Hnx : next_sibling (lk D1) (t_node t) = hd_error (map t_node ts)).
    { unfold next_sibling. rewrite (r_next _ _ (iv_rep D1 _ I1)), (Hsib1 Hnot).
      apply succ_in_at. rewrite <- (Hsib1 Hnot). apply (wf_nodup _ (r_wf _ _ (iv_rep D1 _ I1))). }
    rewrite Hnx.
    destruct (IH ts D1 (f_prune S1 F) (k + length (flat_map (maximal p) kids))) as (D2 & E2 & I2 & Hr2 & Sh2 & B2); try easy.
    + rewrite app_length in Hfuel. destruct t. cbn in Hfuel. lia.
    + intros x Hx. rewrite (rv_fresh _ _ _ Hr1). apply Hlt, in_app_iff. now right.
    + intros S D' HS x Hx HxS.
      apply (Hst (S1 ++ S) D'); [now apply (removed_app _ _ D D1)| |].
      * cbn [flat_map]. apply in_app_iff. now right.
      * rewrite in_app_iff. intros [H|H]; [|easy]. apply (Hdisj x); [|easy]. rewrite Hpre. right. now apply HS1.
    + rewrite E2. cbn [flat_map]. rewrite Hmax, flat_map_app. exists D2.
      split; [do 2 f_equal; rewrite app_length; lia|].
      split; [eapply InvF_ext; [|exact I2]; apply f_prune_prune|].
      split; [now apply (removed_app _ _ D D1)|]. split; [now apply (shrinks_trans D D1)|].
      replace (k + length (flat_map (maximal p) kids ++ flat_map (maximal p) ts))
        with (k + length (flat_map (maximal p) kids) + length (flat_map (maximal p) ts)) by (rewrite app_length; lia).
      pose proof (tree_hit_trans g _ _ D D1 D2 F Sh1 Sh2 I I1 I2) as HT. rewrite <- Hnx in B2.
      apply (bounds_weaken _ _ _ _ _ _ (bounds_bind _ _ _ _ _ _ _ (fun s => reading g (t_node t) (g_drain_loop fuel g f (next_sibling (lk (fst s)) (t_node t)) s))
        (bounds_reading g (t_node t) _ _ _ _ B1) (bounds_reading g (t_node t) _ _ _ _ B2))); fold S1; cbn [t_node] in *.
      * intros [(x & Hx & Hin)|H].
        -- rewrite Hpre in Hin. cbn [app] in Hin. destruct Hin as [<-|Hin]; [tauto|]. apply in_app_iff in Hin.
           destruct Hin as [Hin|Hin]; [left; right|right; right]; left; exists x; tauto.
        -- apply HT in H. unfold drain_hit. tauto.
      * assert (Hs : held_mut g (t_node t) -> drain_hit g (preorder t ++ flat_map preorder ts)
            (S1 ++ flat_map preorder (flat_map (maximal p) ts)) D D2).
        { intros H. left. exists (t_node t). split; [easy|]. apply in_app_iff. now left. }
        intros [[H|[H|[(x & Hx & Hin)|H]]]|[H|[(x & Hx & Hin)|H]]]; try (apply Hs; exact H).
        -- left. exists x. split; [easy|]. apply in_app_iff. left. rewrite Hpre. now right.
        -- right. apply HT. now left.
        -- left. exists x. split; [easy|]. apply in_app_iff. now right.
        -- right. apply HT. now right.
Qed.

Theorem drain_bounds g D F t f : InvF D F -> tree_at F t -> t_node t < fresh D -> stable f D ->
  let ms := flat_map (maximal (f D)) (t_kids t) in
  let S := flat_map preorder ms in
  exists D', drain (t_node t) f D = Ok (D', length ms) /\
    bounds (drain_hit g (preorder t) S D D') (drain_hit g (preorder t) S D D') (D', length ms) (g_drain g (t_node t) f D).
Proof.
  intros I Ht Hn Hst ms S. unfold drain, g_drain.
  pose proof (r_wf _ _ (iv_rep D F I)) as W.
  pose proof (preorder_nodup F t W Ht) as Hnd.
  assert (Hpre : preorder t = t_node t :: flat_map preorder (t_kids t)) by (destruct t; easy).
  rewrite Hpre in Hnd. inversion Hnd as [|? ? Hnin Hnd']; subst.
  pose proof (tree_size D F t I Ht Hn) as Hsz. rewrite Hpre in Hsz. cbn in Hsz.
  unfold first_child. rewrite (r_first _ _ (iv_rep D F I)), (tree_at_children F t Ht).
  destruct (drain_loop_bounds g f (f D) (Datatypes.S (enough D)) (t_kids t) D F 0) as (D' & E & I' & Hr & Sh & B); try easy.
  - unfold enough. lia.
  - destruct Ht; easy.
  - unfold at_head. pose proof (tree_at_children F t Ht) as Hk. destruct (t_kids t) as [|c ks]; [easy|].
    exists []. cbn [app]. rewrite <- Hk. apply child_siblings; [easy|]. rewrite Hk. now left.
  - intros x Hx. apply (tree_nodes_exist D F t); try easy. rewrite Hpre. now right.
  - intros S' D' HS x _ Hx. now apply (Hst S' D').
  - exists D'. split; [easy|]. apply (bounds_weaken _ _ _ _ _ _ (bounds_reading g (t_node t) _ _ _ _ B)); fold ms; fold S.
    + intros [(x & Hx & Hin)|H]; [|right; now right]. rewrite Hpre in Hin. destruct Hin as [<-|Hin]; [now left|]. right. left. now exists x.
    + intros [H|[(x & Hx & Hin)|H]]; [| |now right]; left.
      * exists (t_node t). split; [easy|apply preorder_self].
      * exists x. split; [easy|]. rewrite Hpre. now right.
Qed.
