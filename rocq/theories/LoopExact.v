(* drain with any closure and copy_node_deep: when they return. *)
From Coq Require Import List Bool PeanoNat NArith Lia.
From Verif Require Import Base Ids Links Tree Iter ForestSpec ListFacts TreeProofs ForestFacts IterSpec IterProofs
  PruneFacts Data Attrs Slab SlabProofs NodeApi Doc AttrFacts LinkProofs DocSpec RemoveProofs History InvProofs HistoryProofs
  DrainProofs CopyProofs Loops RemoveExact TreeSpec TreeApi ApiProofs DocApi LoopSpec.
Import ListNotations.

Lemma subtrees_self t : In t (subtrees t).
Proof. destruct t; now left. Qed.
Lemma subtrees_pre t m : In m (subtrees t) -> forall x, In x (preorder m) -> In x (preorder t).
Proof.
  revert m. induction t as [n ts IH] using tree_ind'. intros m [<-|H] x Hx; [easy|]. right.
  apply in_flat_map in H. destruct H as (c & Hc & Hm). rewrite Forall_forall in IH.
  apply in_flat_map. exists c. split; [easy|]. now apply (IH c Hc m).
Qed.
Lemma subtrees_at F t m : tree_at F t -> In m (subtrees t) -> tree_at F m.
Proof.
  revert m. induction t as [n ts IH] using tree_ind'. intros m Ht [<-|H]; [easy|].
  apply in_flat_map in H. destruct H as (c & Hc & Hm). inversion Ht as [? ? E Hall]; subst.
  rewrite Forall_forall in IH, Hall. apply (IH c Hc m); [now apply Hall|easy].
Qed.
Lemma subs_pre ts ms : (forall m, In m ms -> In m (flat_map subtrees ts)) ->
  forall x, In x (flat_map preorder ms) -> In x (flat_map preorder ts).
Proof.
  intros H x Hx. apply in_flat_map in Hx. destruct Hx as (m & Hm & Hx). apply H in Hm.
  apply in_flat_map in Hm. destruct Hm as (t & Ht & Hm). apply in_flat_map. exists t. split; [easy|].
  now apply (subtrees_pre t m).
Qed.

Lemma answered_later f D D1 S1 S2 x b : removed S1 D D1 -> ~ In x S1 -> answered f D1 S2 x b -> answered f D (S1 ++ S2) x b.
Proof.
  intros R Hx (S3 & D2 & Hs & Hn & R2 & E). exists (S1 ++ S3), D2. split.
  - intros y Hy. apply in_app_iff in Hy. apply in_app_iff. destruct Hy as [Hy|Hy]; [now left|right; now apply Hs].
  - split; [rewrite in_app_iff; tauto|]. split; [now apply (removed_app _ _ D D1)|easy].
Qed.
Lemma answered_more f D S S' x b : (forall y, In y S -> In y S') -> answered f D S x b -> answered f D S' x b.
Proof. intros H (S1 & D1 & Hs & Hr). exists S1, D1. split; [|easy]. intros y Hy. now apply H, Hs. Qed.

Lemma drain_loop_any f : forall fuel ts D F k,
  length (flat_map preorder ts) < fuel ->
  InvF D F -> Forall (tree_at F) ts -> at_head F ts -> NoDup (flat_map preorder ts) ->
  (forall x, In x (flat_map preorder ts) -> x < fresh D) ->
  exists D' ms, drain_loop fuel f (hd_error (map t_node ts)) (D, k) = Ok (D', k + length ms) /\
    InvF D' (f_prune (flat_map preorder ms) F) /\ drained_by f D D' ts ms.
Proof.
  induction fuel as [|fuel IH]; intros ts D F k Hfuel I Hall Hhd Hnd Hlt; [lia|].
  destruct ts as [|t ts].
  { cbn. exists D, []. rewrite Nat.add_0_r. split; [easy|]. split.
    - eapply InvF_ext; [|exact I]. apply forest_eq_sym, f_prune_nil.
    - split; try easy. apply removed_nil. }
  pose proof (r_wf _ _ (iv_rep D F I)) as W.
  cbn [flat_map] in Hnd, Hlt, Hfuel. destruct Hhd as (pre & Hsib).
  inversion Hall as [|? ? Ht Hts]; subst.
  assert (Hdisj : forall x, In x (preorder t) -> ~ In x (flat_map preorder ts))
    by (intros x; now apply NoDup_app_disj).
  assert (Hndts : NoDup (flat_map preorder ts)) by now apply NoDup_app_r in Hnd.
  assert (Hself : In (t_node t) (preorder t)) by apply preorder_self.
  pose proof (wf_nodup F W (t_node t)) as Hns. rewrite Hsib in Hns. cbn [map] in Hsib, Hns.
  assert (Hafter : forall S, (forall x, In x S -> In x (preorder t)) ->
    Forall (tree_at (f_prune S F)) ts /\
    (at_head (f_prune S F) ts) /\
    (~ In (t_node t) S -> siblings_of (f_prune S F) (t_node t) = without S pre ++ t_node t :: map t_node ts)).
  { intros S HS.
    assert (Hout : forall x, In x (map t_node ts) -> ~ In x S).
    { intros x Hx Hin. apply HS in Hin. apply (Hdisj x Hin). apply in_map_iff in Hx. destruct Hx as (c & <- & Hc).
      apply in_flat_map. exists c. split; [easy|apply preorder_self]. }
    split; [|split].
    - rewrite Forall_forall in Hts |- *. intros c Hc. apply tree_at_prune; [now apply Hts|].
      intros x Hx Hin. apply HS in Hin. apply (Hdisj x Hin). apply in_flat_map. now exists c.
    - pose proof (siblings_hd F (t_node t) ts pre _ W Hsib eq_refl) as Hh. destruct ts as [|r ts']; [easy|].
      exists (without S (pre ++ [t_node t])). cbn [f_prune siblings_of].
      replace (mem (t_node r) S) with false.
      2:{ symmetry. apply mem_not_In, Hout. now left. }
      rewrite Hh. unfold without at 1. rewrite filter_app. f_equal.
      change (filter (fun x => negb (mem x S))) with (without S). now apply without_none.
    - intros Hn. cbn [f_prune siblings_of]. replace (mem (t_node t) S) with false by (symmetry; now apply mem_not_In).
      rewrite Hsib. unfold without at 1. rewrite filter_app. f_equal.
      change (filter (fun x => negb (mem x S))) with (without S). apply without_none.
      intros x [<-|Hx]; [easy|]. now apply Hout. }
  cbn [map hd_error drain_loop fst snd].
  destruct (f D (t_node t)) eqn:Ep.
  - (* t is removed *)
    assert (Hnx : next_sibling (lk D) (t_node t) = hd_error (map t_node ts)).
    { unfold next_sibling. rewrite (r_next _ _ (iv_rep D F I)), Hsib. now apply succ_in_at. }
    rewrite Hnx.
    destruct (remove_node_spec D F t I Ht) as (D1 & -> & I1 & Hr1).
    { apply Hlt, in_app_iff. now left. }
    cbn [bind]. destruct (Hafter (preorder t)) as (Hts1 & Hhd1 & _); [easy|].
    destruct (IH ts D1 (f_prune (preorder t) F) (S k)) as (D2 & ms & E2 & I2 & [B1 B2 B3 B4]); try easy.
    + rewrite app_length in Hfuel. destruct t. cbn in Hfuel. lia.
    + intros x Hx. rewrite (rv_fresh _ _ _ Hr1). apply Hlt, in_app_iff. now right.
    + rewrite E2. exists D2, (t :: ms). cbn [length flat_map]. split; [do 2 f_equal; lia|]. split.
      { eapply InvF_ext; [|exact I2]. apply f_prune_prune. }
      assert (Hsub : forall x, In x (flat_map preorder ms) -> ~ In x (preorder t)).
      { intros x Hx Hin. apply (Hdisj x Hin). now apply (subs_pre ts ms B1). }
      split.
      * intros m [<-|Hm]; apply in_app_iff; [left; apply subtrees_self|right; now apply B1].
      * intros m [<-|Hm].
        -- exists [], D. split; [easy|]. split; [easy|]. split; [apply removed_nil|easy].
        -- apply (answered_later f D D1); [easy| |now apply B2]. apply Hsub. apply in_flat_map. exists m.
           split; [easy|apply preorder_self].
      * intros x Hx Hn. cbn [flat_map] in *. rewrite in_app_iff in Hx, Hn.
        apply (answered_later f D D1); [easy|tauto|]. apply B3; tauto.
      * cbn [flat_map]. now apply (removed_app _ _ D D1).
  - (* t is kept *)
    set (kids := t_kids t).
    assert (Hkids : children_of F (t_node t) = map t_node kids) by (apply tree_at_children; easy).
    assert (Hpre : preorder t = t_node t :: flat_map preorder kids) by (destruct t; easy).
    assert (Hkat : Forall (tree_at F) kids) by (destruct Ht; easy).
    assert (H1 : exists D1 ms, (if has_children (lk D) (t_node t)
                  then drain_loop fuel f (first_child (lk D) (t_node t)) (D, k)
                  else Ok (D, k)) = Ok (D1, k + length ms) /\
                 InvF D1 (f_prune (flat_map preorder ms) F) /\ drained_by f D D1 kids ms).
    { unfold has_children, first_child. rewrite (r_first _ _ (iv_rep D F I)), Hkids.
      destruct (hd_error (map t_node kids)) as [c|] eqn:Em.
      - rewrite <- Em. apply (IH kids D F k); try easy.
        + rewrite app_length, Hpre in Hfuel. cbn in Hfuel. lia.
        + unfold at_head. destruct kids as [|c0 kids']; [easy|]. exists []. cbn [app]. rewrite <- Hkids.
          apply child_siblings; [easy|]. rewrite Hkids. now left.
        + pose proof (preorder_nodup F t W Ht) as Hn. rewrite Hpre in Hn. now inversion Hn.
        + intros x Hx. apply Hlt, in_app_iff. left. rewrite Hpre. now right.
      - assert (Ek : kids = []) by (destruct kids; [easy|discriminate]).
        rewrite Ek. cbn. exists D, []. rewrite Nat.add_0_r. split; [easy|]. split.
        + eapply InvF_ext; [|exact I]. apply forest_eq_sym, f_prune_nil.
        + split; try easy. apply removed_nil. }
    destruct H1 as (D1 & ms1 & -> & I1 & [A1 A2 A3 A4]). cbn [bind fst].
    set (S1 := flat_map preorder ms1) in *.
    assert (HS1 : forall x, In x S1 -> In x (flat_map preorder kids)) by (intros x; now apply (subs_pre kids ms1)).
    assert (Hnot : ~ In (t_node t) S1).
    { intros H. apply HS1 in H. pose proof (preorder_nodup F t W Ht) as Hn. rewrite Hpre in Hn. now inversion Hn. }
    destruct (Hafter S1) as (Hts1 & Hhd1 & Hsib1).
    { intros x Hx. rewrite Hpre. right. now apply HS1. }
    assert (Hnx : next_sibling (lk D1) (t_node t) = hd_error (map t_node ts)).
    { unfold next_sibling. rewrite (r_next _ _ (iv_rep D1 _ I1)), (Hsib1 Hnot).
      apply succ_in_at. rewrite <- (Hsib1 Hnot). apply (wf_nodup _ (r_wf _ _ (iv_rep D1 _ I1))). }
    rewrite Hnx.
    destruct (IH ts D1 (f_prune S1 F) (k + length ms1)) as (D2 & ms2 & E2 & I2 & [B1 B2 B3 B4]); try easy.
    + rewrite app_length in Hfuel. destruct t. cbn in Hfuel. lia.
    + intros x Hx. rewrite (rv_fresh _ _ _ A4). apply Hlt, in_app_iff. now right.
    + rewrite E2. exists D2, (ms1 ++ ms2). rewrite flat_map_app, app_length.
      split; [do 2 f_equal; lia|]. split.
      { eapply InvF_ext; [|exact I2]. apply f_prune_prune. }
      assert (Hsub : forall x, In x S1 -> In x (preorder t)) by (intros x Hx; rewrite Hpre; right; now apply HS1).
      assert (Hs2 : forall x, In x (flat_map preorder ms2) -> ~ In x S1).
      { intros x Hx Hin. apply (Hdisj x); [now apply Hsub|]. now apply (subs_pre ts ms2 B1). }
      split.
      * intros m Hm. apply in_app_iff in Hm. cbn [flat_map]. apply in_app_iff. destruct Hm as [Hm|Hm]; [left|right; now apply B1].
        apply A1 in Hm. destruct t as [n ks]. now right.
      * rewrite flat_map_app. intros m Hm. apply in_app_iff in Hm. destruct Hm as [Hm|Hm].
        -- eapply answered_more; [|apply A2, Hm]. intros y Hy. apply in_app_iff. now left.
        -- apply (answered_later f D D1); [easy| |now apply B2]. apply Hs2. apply in_flat_map. exists m.
           split; [easy|apply preorder_self].
      * rewrite flat_map_app. intros x Hx Hn. cbn [flat_map] in Hx. rewrite in_app_iff in Hx, Hn.
        destruct Hx as [Hx|Hx].
        -- rewrite Hpre in Hx. destruct Hx as [<-|Hx].
           ++ exists [], D. split; [easy|]. split; [easy|]. split; [apply removed_nil|easy].
           ++ eapply answered_more; [|apply A3; [exact Hx|tauto]]. intros y Hy. apply in_app_iff. now left.
        -- apply (answered_later f D D1); [easy|tauto|]. apply B3; tauto.
      * rewrite flat_map_app. now apply (removed_app _ _ D D1).
Qed.

Lemma kids_head F t : wf_forest F -> tree_at F t -> at_head F (t_kids t).
Proof.
  intros W Ht. unfold at_head. pose proof (tree_at_children F t Ht) as Hk. destruct (t_kids t) as [|c ks]; [easy|].
  exists []. cbn [app]. rewrite <- Hk. apply child_siblings; [easy|]. rewrite Hk. now left.
Qed.

Lemma drain_any D F t f : InvF D F -> tree_at F t -> t_node t < fresh D ->
  exists D' ms, drain (t_node t) f D = Ok (D', length ms) /\ InvF D' (f_prune (flat_map preorder ms) F) /\
    drained_by f D D' (t_kids t) ms.
Proof.
  intros I Ht Hn. unfold drain. pose proof (r_wf _ _ (iv_rep D F I)) as W.
  pose proof (preorder_nodup F t W Ht) as Hnd.
  assert (Hpre : preorder t = t_node t :: flat_map preorder (t_kids t)) by (destruct t; easy).
  rewrite Hpre in Hnd. inversion Hnd as [|? ? Hnin Hnd']; subst.
  pose proof (tree_size D F t I Ht Hn) as Hsz. rewrite Hpre in Hsz. cbn in Hsz.
  unfold first_child. rewrite (r_first _ _ (iv_rep D F I)), (tree_at_children F t Ht).
  destruct (drain_loop_any f (Datatypes.S (enough D)) (t_kids t) D F 0) as (D' & ms & E & I' & B); try easy.
  - unfold enough. lia.
  - destruct Ht; easy.
  - now apply kids_head.
  - intros x Hx. apply (tree_nodes_exist D F t); try easy. rewrite Hpre. now right.
  - exists D', ms. now split.
Qed.

(* ---- trees that are not finite *)
Lemma drain_mono f : forall fuel fuel' n s, fuel <= fuel' -> drain_loop fuel f n s <> Diverge ->
  drain_loop fuel' f n s = drain_loop fuel f n s.
Proof.
  induction fuel as [|fuel IH]; intros fuel' n s Hf H; [easy|]. destruct fuel' as [|fuel']; [lia|].
  cbn [drain_loop] in *. destruct n as [n|]; [|easy]. destruct (f (fst s) n).
  - destruct (remove_node n (fst s)); cbn [bind] in *; [|easy|easy]. apply IH; [lia|easy].
  - destruct (has_children (lk (fst s)) n); cbn [bind] in *; [|apply IH; [lia|easy]].
    destruct (drain_loop fuel f (first_child (lk (fst s)) n) s) as [s1| |] eqn:E; cbn [bind] in *; [| |easy].
    + rewrite (IH fuel' _ s), E; [|lia|now rewrite E]. cbn [bind]. apply IH; [lia|easy].
    + rewrite (IH fuel' _ s), E; [easy|lia|now rewrite E].
Qed.

Lemma unprune_all F S : (forall x, In x S -> finite_at F x) ->
  forall u, tree_at (f_prune S F) u -> finite_at F (t_node u).
Proof.
  intros HS. induction u as [n ts IH] using tree_ind'. intros Hat. inversion Hat as [? ? E Hall]; subst. cbn [t_node].
  destruct (mem n S) eqn:Em.
  { apply mem_In in Em. now apply HS. }
  cbn in E. rewrite Em in E. apply finite_kids. intros c Hc.
  destruct (mem c S) eqn:Ec.
  { apply mem_In in Ec. now apply HS. }
  assert (Hin : In c (map t_node ts)).
  { rewrite <- E. apply in_without. split; [easy|]. now apply mem_not_In. }
  apply in_map_iff in Hin. destruct Hin as (v & <- & Hv). rewrite Forall_forall in IH, Hall.
  apply IH; [easy|now apply Hall].
Qed.

Lemma not_all {A} (P : A -> Prop) l : ~ (forall x, In x l -> P x) -> ~ ~ exists x, In x l /\ ~ P x.
Proof.
  induction l as [|y l IH]; intros H N; [now apply H|].
  assert (Hy : ~ ~ P y) by (intros Hy; apply N; exists y; split; [now left|easy]).
  apply Hy. intros Py. apply IH; [|intros (x & Hx & Hn); apply N; exists x; split; [now right|easy]].
  intros Hall. apply H. intros x [<-|Hx]; [easy|now apply Hall].
Qed.

Lemma in_tree_sibling F t c : wf_forest F -> tree_at F t -> In c (siblings_of F (t_node t)) ->
  In c (preorder t) -> c = t_node t.
Proof.
  intros W Ht Hs Hc. apply (preorder_iff F t c W Ht) in Hc. inversion Hc as [|? ? p Hp Ha]; subst; [easy|].
  destruct (wf_share F W (t_node t) c Hs) as (_ & Ep). rewrite Ep in Hp.
  exfalso. destruct (anc_child F (t_node t) p W Ha) as [->|(d & Hd & Had)].
  - exact (tree_no_loop F t (t_node t) W Ht (aos_self _ _) Hp).
  - apply (tree_no_loop F t d W Ht); [now apply (aos_up F d (t_node t) p)|]. now apply (wf_child F W).
Qed.

Lemma child_exists D F n c : InvF D F -> In c (children_of F n) -> c < fresh D.
Proof.
  intros I Hc. pose proof (r_wf _ _ (iv_rep D F I)) as W. apply (wf_child F W) in Hc.
  destruct (Nat.lt_ge_cases c (fresh D)) as [|Hle]; [easy|]. destruct (iv_iso D F I c Hle) as (Hp & _). congruence.
Qed.

Lemma RInv_of D F : InvF D F -> RInv D F.
Proof. intros I. split; [apply I|split; apply I]. Qed.

Lemma drain_inf f : forall fuel n pre post D F k, InvF D F -> siblings_of F n = pre ++ n :: post ->
  (forall x, In x (siblings_of F n) -> x < fresh D) ->
  (exists x, In x (n :: post) /\ ~ finite_at F x) -> drain_loop fuel f (Some n) (D, k) = Diverge.
Proof.
  induction fuel as [|fuel IH]; intros n pre post D F k I Hsib Hlt Hx; [easy|].
  pose proof (r_wf _ _ (iv_rep D F I)) as W. pose proof (wf_nodup F W n) as Hnd. rewrite Hsib in Hnd.
  assert (Hn : n < fresh D) by (apply Hlt; rewrite Hsib; apply in_app_iff; right; now left).
  (* going on with the next sibling after a part of the tree of n is gone *)
  assert (Hnext : forall t S D1 k1, tree_at F t -> t_node t = n -> (forall x, In x S -> In x (preorder t)) ->
    InvF D1 (f_prune S F) -> fresh D1 = fresh D -> drain_loop fuel f (hd_error post) (D1, k1) = Diverge).
  { intros t S D1 k1 Ht En HS I1 Ef. destruct Hx as (x & Hx & Hinf).
    assert (Hxp : In x post).
    { destruct Hx as [<-|Hx]; [|easy]. exfalso. apply Hinf. now exists t. }
    assert (HpS : forall c, In c post -> ~ In c S).
    { intros c Hc Hin. apply HS in Hin.
      assert (Hcs : In c (siblings_of F (t_node t))) by (rewrite En, Hsib; apply in_app_iff; right; now right).
      apply (in_tree_sibling F t c W Ht Hcs) in Hin. subst c. rewrite En in Hc.
      apply NoDup_remove_2 in Hnd. apply Hnd, in_app_iff. now right. }
    destruct post as [|n' post']; [easy|]. cbn [hd_error].
    assert (Es : siblings_of F n' = (pre ++ [n]) ++ n' :: post').
    { destruct (wf_share F W n n') as (Es & _); [rewrite Hsib; apply in_app_iff; right; right; now left|].
      now rewrite Es, Hsib, <- app_assoc. }
    assert (Hmem : mem n' S = false) by (apply mem_not_In, HpS; now left).
    apply (IH n' (without S (pre ++ [n])) post' D1 (f_prune S F) k1 I1).
    - cbn [f_prune siblings_of]. rewrite Hmem, Es. unfold without at 1. rewrite filter_app. f_equal.
      change (filter (fun x => negb (mem x S))) with (without S). now apply without_none.
    - intros y Hy. rewrite Ef. apply Hlt. cbn [f_prune siblings_of] in Hy. rewrite Hmem in Hy.
      apply in_without in Hy. destruct Hy as (Hy & _). rewrite Es, <- app_assoc in Hy. now rewrite Hsib.
    - exists x. split; [easy|]. intros (u & <- & Hu). apply Hinf, (unprune_all F S); [|easy].
      intros y Hy. apply HS in Hy. now apply (finite_below F t). }
  cbn [drain_loop fst snd]. destruct (f D n).
  - destruct (remove_node n D) as [D1| |] eqn:E; cbn [bind]; [| |easy].
    + assert (Hf : finite_at F n).
      { apply (remove_rec_finite_only (enough D) n D F (RInv_of D F I)). unfold remove_node in E. now rewrite E. }
      destruct Hf as (t & En & Ht). subst n. destruct (remove_node_spec D F t I Ht Hn) as (D2 & E2 & I2 & R2).
      rewrite E2 in E. injection E as <-.
      assert (Hnx : next_sibling (lk D) (t_node t) = hd_error post).
      { unfold next_sibling. rewrite (r_next _ _ (iv_rep D F I)), Hsib. now apply succ_in_at. }
      rewrite Hnx. apply (Hnext t (preorder t)); [easy|easy|easy|easy|apply R2].
    + exfalso. assert (Hf : finite_at F n).
      { apply (remove_rec_finite_only (enough D) n D F (RInv_of D F I)). unfold remove_node in E. now rewrite E. }
      destruct Hf as (t & En & Ht). subst n. destruct (remove_node_spec D F t I Ht Hn) as (D2 & E2 & _). congruence.
  - set (inner := if has_children (lk D) n then _ else _).
    destruct (s <- inner ;; drain_loop fuel f (next_sibling (lk (fst s)) n) s) as [s2| |] eqn:Er; [| |easy].
    all: exfalso.
    all: assert (Hi : inner <> Diverge) by (intros Hd; rewrite Hd in Er; discriminate).
    all: assert (Hem : ~ ~ (finite_at F n \/ ~ finite_at F n)) by (intros H; apply H; right; intros G; apply H; now left).
    all: apply Hem; intros [Hf|Hf].
    all: try (apply (not_all (finite_at F) (children_of F n)); [intros Hall; apply Hf, finite_kids, Hall|];
      intros (c & Hc & Hinf); apply Hi; unfold inner, has_children, first_child;
      rewrite (r_first _ _ (iv_rep D F I));
      destruct (children_of F n) as [|c0 cs] eqn:Ec; [easy|]; cbn [hd_error];
      assert (Es0 : siblings_of F c0 = c0 :: cs)
        by (rewrite <- Ec; apply child_siblings; [easy|rewrite Ec; now left]);
      apply (IH c0 [] cs D F k I Es0); [|exists c; now split];
      intros y Hy; rewrite Es0, <- Ec in Hy; apply (child_exists D F n); easy).
    all: destruct Hf as (t & En & Ht).
    all: assert (Hin : exists D1 ms, inner = Ok (D1, k + length ms) /\ InvF D1 (f_prune (flat_map preorder ms) F) /\
           (forall x, In x (flat_map preorder ms) -> In x (flat_map preorder (t_kids t))) /\ fresh D1 = fresh D).
    1,3: (assert (Hpre : preorder t = t_node t :: flat_map preorder (t_kids t)) by (destruct t; easy);
      pose proof (preorder_nodup F t W Ht) as Hndt; rewrite Hpre in Hndt;
      inversion Hndt as [|? ? Hnin Hnd']; subst;
      destruct (drain_loop_any f (fuel + S (length (flat_map preorder (t_kids t)))) (t_kids t) D F k)
        as (D1 & ms & E1 & I1 & [B1 B2 B3 B4]);
        [lia|easy|now destruct Ht|now apply kids_head|easy
        |intros x Hxx; apply (tree_nodes_exist D F t); [easy|easy|easy|rewrite Hpre; now right]|];
      assert (Hb : forall x, In x (flat_map preorder ms) -> In x (flat_map preorder (t_kids t)))
        by (intros x; now apply (subs_pre (t_kids t) ms));
      unfold inner, has_children, first_child in Hi |- *;
      rewrite (r_first _ _ (iv_rep D F I)), (tree_at_children F t Ht) in Hi |- *;
      destruct (hd_error (map t_node (t_kids t))) as [c|] eqn:Em;
      [ exists D1, ms; split; [|split; [easy|split; [easy|apply B4]]];
        rewrite <- E1; symmetry; apply drain_mono; [lia|exact Hi]
      | exists D, []; rewrite Nat.add_0_r; split; [easy|split; [|easy]];
        eapply InvF_ext; [|exact I]; apply forest_eq_sym, f_prune_nil ]).
    all: destruct Hin as (D1 & ms & E1 & I1 & Hsub & Ef); rewrite E1 in Er; cbn [bind fst] in Er.
    all: set (S1 := flat_map preorder ms) in *.
    all: assert (Hpre : preorder t = t_node t :: flat_map preorder (t_kids t)) by (destruct t; easy).
    all: assert (Hnot : ~ In n S1) by (intros H; apply Hsub in H; pose proof (preorder_nodup F t W Ht) as Hn2;
           rewrite Hpre, En in Hn2; now inversion Hn2).
    all: assert (HS : forall x, In x S1 -> In x (preorder t)) by (intros x Hxx; rewrite Hpre; right; now apply Hsub).
    all: assert (HpS : forall c, In c post -> ~ In c S1) by (intros c Hc Hinn; apply HS in Hinn;
           assert (Hcs : In c (siblings_of F (t_node t))) by (rewrite En, Hsib; apply in_app_iff; right; now right);
           apply (in_tree_sibling F t c W Ht Hcs) in Hinn; subst c; rewrite En in Hc;
           apply NoDup_remove_2 in Hnd; apply Hnd, in_app_iff; now right).
    all: assert (Es1 : siblings_of (f_prune S1 F) n = without S1 pre ++ n :: post) by
          (cbn [f_prune siblings_of]; replace (mem n S1) with false by (symmetry; now apply mem_not_In);
           rewrite Hsib; unfold without at 1; rewrite filter_app; f_equal;
           change (filter (fun x => negb (mem x S1))) with (without S1); apply without_none;
           intros x [<-|Hxx]; [easy|now apply HpS]).
    all: assert (Hnx : next_sibling (lk D1) n = hd_error post) by
          (unfold next_sibling; rewrite (r_next _ _ (iv_rep D1 _ I1)), Es1;
           apply succ_in_at; rewrite <- Es1; apply (wf_nodup _ (r_wf _ _ (iv_rep D1 _ I1)))).
    all: rewrite Hnx, (Hnext t S1 D1 _ Ht En HS I1 Ef) in Er; discriminate.
Qed.

Lemma finite_dec D F n : InvF D F -> n < fresh D -> finite_at F n \/ ~ finite_at F n.
Proof.
  intros I Hn. destruct (remove_node n D) as [D'| |] eqn:E.
  - left. apply (remove_rec_finite_only (enough D) n D F (RInv_of D F I)). unfold remove_node in E. now rewrite E.
  - left. apply (remove_rec_finite_only (enough D) n D F (RInv_of D F I)). unfold remove_node in E. now rewrite E.
  - right. intros (t & <- & Ht). destruct (remove_node_spec D F t I Ht Hn) as (D' & E' & _). congruence.
Qed.

Lemma drain_inf_top D F n f fuel k : InvF D F -> ~ finite_at F n ->
  drain_loop fuel f (first_child (lk D) n) (D, k) = Diverge.
Proof.
  intros I Hf. pose proof (r_wf _ _ (iv_rep D F I)) as W.
  destruct (drain_loop fuel f (first_child (lk D) n) (D, k)) as [s| |] eqn:E; [| |easy]; exfalso.
  all: apply (not_all (finite_at F) (children_of F n)); [intros Hall; apply Hf, finite_kids, Hall|].
  all: intros (c & Hc & Hinf); unfold first_child in E; rewrite (r_first _ _ (iv_rep D F I)) in E.
  all: destruct (children_of F n) as [|c0 cs] eqn:Ec; [easy|]; cbn [hd_error] in E.
  all: assert (Es0 : siblings_of F c0 = c0 :: cs)
        by (rewrite <- Ec; apply child_siblings; [easy|rewrite Ec; now left]).
  all: rewrite (drain_inf f fuel c0 [] cs D F k I Es0) in E; [discriminate| |exists c; now split].
  all: intros y Hy; rewrite Es0, <- Ec in Hy; now apply (child_exists D F n).
Qed.

Lemma drain_exact D F n f : InvF D F -> n < fresh D ->
  (finite_at F n /\ exists r, drain n f D = Ok r) \/
  (~ finite_at F n /\ forall fuel, drain_loop fuel f (first_child (lk D) n) (D, 0) = Diverge).
Proof.
  intros I Hn. destruct (finite_dec D F n I Hn) as [Hf|Hf]; [left|right]; split; try exact Hf.
  - destruct Hf as (t & <- & Ht). destruct (drain_any D F t f I Ht Hn) as (D' & ms & E & _). eauto.
  - intros fuel. now apply (drain_inf_top D F).
Qed.

(* ---- deep copies *)
Lemma copy_ok D F n r : InvF D F -> n < fresh D -> copy_node n D = Ok r ->
  copyable D n /\ fst r = fresh D /\ InvF (snd r) F /\ lk (snd r) = lk D /\ fresh (snd r) = S (fresh D) /\
  (forall x, x < fresh D -> node_type (snd r) x = node_type D x /\ id_of (snd r) x = id_of D x /\
     attributes (snd r) x = attributes D x).
Proof.
  intros I Hn E. destruct (copyable_dec D n) as [C|C].
  - destruct C as (Hr & Ht). destruct (copy_node_spec D F n I Hn Hr Ht) as (D1 & E1 & I1 & Hl & Hf & _ & X).
    rewrite E1 in E. injection E as <-. cbn [fst snd]. split; [now split|]. split; [easy|]. split; [easy|].
    split; [easy|]. split; [easy|]. intros x Hx. destruct (cf_old _ _ _ X x Hx) as (_ & y1 & _ & y2 & _ & y3 & _). easy.
  - exfalso. destruct (copy_node_fails D F n I Hn) as (k & Ek); [|congruence].
    destruct (node_type D n) eqn:Et; [now left|..]; right.
    all: assert (Hn' : ~ targets_named D n) by (intros T; apply C; split; [rewrite Et; easy|easy]).
    all: unfold targets_named in Hn'.
    all: assert (G : forall l, (forall a t, In a l -> link_target (a_value a) = Some t -> id_of D t <> []) \/
         exists a t, In a l /\ link_target (a_value a) = Some t /\ id_of D t = []).
    1,3,5: induction l as [|a l IH]; [left; easy|];
         destruct (link_target (a_value a)) as [t|] eqn:El;
         [destruct (id_of D t) eqn:Ei;
          [right; exists a, t; split; [now left|easy]|]|];
         (destruct IH as [IH|(b & u & B1 & B2 & B3)]; [left|right; exists b, u; split; [now right|easy]]);
         intros b u [<-|Hb] Hu; try (now apply (IH b)); congruence.
    all: destruct (G (attributes D n)) as [G1|G1]; [contradiction|exact G1].
Qed.

(* the nodes below [k] are as before *)
Definition old (k : nat) (D : dom) (F : forest) (D' : dom) (F' : forest) : Prop :=
  fresh D <= fresh D' /\
  forall x, x < k -> children_of F' x = children_of F x /\ node_type D' x = node_type D x /\
    id_of D' x = id_of D x /\ attributes D' x = attributes D x.
(* and refer to each other only *)
Definition closed (k : nat) (D : dom) (F : forest) : Prop :=
  k <= fresh D /\ (forall x c, x < k -> In c (children_of F x) -> c < k) /\
  (forall x a t, x < k -> In a (attributes D x) -> link_target (a_value a) = Some t -> t < k).

Lemma old_refl k D F : old k D F D F.
Proof. split; [easy|]. easy. Qed.
Lemma old_trans k D F D1 F1 D2 F2 : old k D F D1 F1 -> old k D1 F1 D2 F2 -> old k D F D2 F2.
Proof.
  intros (H1 & A1) (H2 & A2). split; [lia|]. intros x Hx. destruct (A1 x Hx) as (a1 & a2 & a3 & a4).
  destruct (A2 x Hx) as (b1 & b2 & b3 & b4). repeat split; congruence.
Qed.
Lemma closed_old k D F D' F' : closed k D F -> old k D F D' F' -> closed k D' F'.
Proof.
  intros (Hk & Hc & Ht) (Hf & A). split; [lia|]. split.
  - intros x c Hx H. destruct (A x Hx) as (-> & _) in H || (destruct (A x Hx) as (E & _); rewrite E in H). now apply (Hc x).
  - intros x a t Hx H. destruct (A x Hx) as (_ & _ & _ & E). rewrite E in H. now apply (Ht x).
Qed.
Lemma tree_old k D F D' F' t : closed k D F -> old k D F D' F' -> t_node t < k -> tree_at F' t ->
  tree_at F t /\ forall x, In x (preorder t) -> x < k.
Proof.
  intros (_ & Hc & _) (_ & A). induction t as [n ts IH] using tree_ind'. intros Hn Ht. cbn [t_node] in Hn.
  inversion Ht as [? ? E Hall]; subst. destruct (A n Hn) as (Ec & _). rewrite Ec in E. rewrite Forall_forall in IH, Hall.
  assert (Hts : forall c, In c ts -> t_node c < k).
  { intros c Hcin. apply (Hc n); [easy|]. rewrite E. now apply in_map. }
  split.
  - constructor; [easy|]. rewrite Forall_forall. intros c Hcin. apply IH; auto.
  - intros x [<-|Hx]; [easy|]. apply in_flat_map in Hx. destruct Hx as (c & Hcin & Hx).
    destruct (IH c Hcin (Hts c Hcin) (Hall c Hcin)) as (_ & G). now apply G.
Qed.
Lemma copyable_old k D F D' F' x : closed k D F -> old k D F D' F' -> x < k -> copyable D' x -> copyable D x.
Proof.
  intros (_ & _ & Ht) (_ & A) Hx (H1 & H2). destruct (A x Hx) as (_ & E1 & _ & E2). rewrite E1 in H1. split; [easy|].
  intros a t Ha Hl. destruct (A t (Ht x a t Hx Ha Hl)) as (_ & _ & <- & _). apply (H2 a); [now rewrite E2|easy].
Qed.

Lemma deep_ok k : forall fuel p n D F D', InvF D F -> closed k D F -> k <= p -> p < fresh D -> n < k ->
  make_deep_copy fuel p n D = Ok D' ->
  (exists t, t_node t = n /\ tree_at F t /\ forall x, In x (flat_map preorder (t_kids t)) -> copyable D x) /\
  exists F', InvF D' F' /\ old k D F D' F'.
Proof.
  induction fuel as [|fuel IH]; intros p n D F D' I C Hkp Hp Hn H; [easy|]. cbn [make_deep_copy] in H.
  rewrite (children_it (lk D) F n (iv_rep D F I)) in H.
  set (body := fun child D =>
           r <- copy_node child D ;;
           let new_node := fst r in
           L <- append [] p new_node (lk (snd r)) ;;
           let D := with_lk L (snd r) in
           if has_children (lk D) child then make_deep_copy fuel new_node child D else Ok D) in H.
  assert (Hloop : forall f l pre s Fs s', InvF s Fs -> old k D F s Fs -> children_of F n = pre ++ l ->
    for_children lk f body (mkChildren (hd_error l) (last_error (pre ++ l))) s = Ok s' ->
    (exists ts, map t_node ts = l /\ Forall (tree_at F) ts /\ forall x, In x (flat_map preorder ts) -> copyable D x) /\
    exists F', InvF s' F' /\ old k D F s' F').
  { induction f as [|f IHf]; intros l pre s Fs s' Is Os El Hs; [easy|]. cbn [for_children] in Hs.
    assert (Els : children_of Fs n = pre ++ l) by (destruct Os as (_ & A); destruct (A n Hn) as (-> & _); easy).
    rewrite (CopyProofs.children_next_at (lk s) Fs n pre l (iv_rep s Fs Is) Els) in Hs.
    destruct l as [|c r].
    { injection Hs as <-. split; [exists []; easy|]. exists Fs. easy. }
    destruct (body c s) as [s1| |] eqn:Eb; cbn [bind] in Hs; [|easy|easy].
    assert (Hc : c < k) by (apply (proj1 (proj2 C) n); [easy|]; rewrite El; apply in_app_iff; right; now left).
    pose proof (closed_old k D F s Fs C Os) as Cs.
    assert (H1 : (exists t, t_node t = c /\ tree_at Fs t /\ forall x, In x (preorder t) -> copyable s x) /\
                 exists F1, InvF s1 F1 /\ old k s Fs s1 F1).
    { unfold body in Eb. destruct (copy_node c s) as [rr| |] eqn:Ec; cbn [bind] in Eb; [|easy|easy].
      assert (Hcf : c < fresh s) by (pose proof (proj1 Cs); lia).
      destruct (copy_ok s Fs c rr Is Hcf Ec) as (Cc & En & I1 & Hl & Hf & Hsame).
      destruct (append [] p (fst rr) (lk (snd rr))) as [L| |] eqn:Ea; cbn [bind] in Eb; [|easy|easy].
      assert (Hps : p < fresh s) by (pose proof (proj1 Os); lia).
      assert (I2 : InvF (with_lk L (snd rr)) (f_append p (fst rr) Fs)) by (apply append_inv; [easy|lia|lia|easy]).
      pose proof (r_wf _ _ (iv_rep s Fs Is)) as W.
      assert (Hiso : isolated Fs (fst rr)) by (apply (iv_iso s Fs Is); lia).
      destruct (append_iso Fs p (fst rr) W Hiso ltac:(lia)) as (HC & _).
      assert (O2 : old k s Fs (with_lk L (snd rr)) (f_append p (fst rr) Fs)).
      { split; [cbn; lia|]. intros x Hx. split.
        - rewrite HC. destruct (Nat.eqb_spec x p); [lia|easy].
        - apply Hsame. pose proof (proj1 Cs). lia. }
      destruct (has_children (lk (with_lk L (snd rr))) c) eqn:Eh.
      - apply (IH (fst rr) c _ (f_append p (fst rr) Fs)) in Eb; try easy.
        + destruct Eb as ((t & <- & Ht & Hcp) & F1 & I3 & O3).
          destruct (tree_old k s Fs _ _ t Cs O2 Hc Ht) as (Ht' & Hlt). split.
          * exists t. split; [easy|]. split; [easy|]. intros x Hx.
            assert (Hpre : preorder t = t_node t :: flat_map preorder (t_kids t)) by (destruct t; easy).
            pose proof (Hlt x Hx) as Hxk. rewrite Hpre in Hx. destruct Hx as [<-|Hx]; [easy|].
            apply (copyable_old k s Fs _ _ x Cs O2 Hxk). now apply Hcp.
          * exists F1. split; [easy|]. now apply (old_trans k s Fs _ _ _ _ O2).
        + now apply (closed_old k s Fs).
        + pose proof (proj1 Cs). lia.
        + cbn. lia.
      - injection Eb as <-. split; [|exists (f_append p (fst rr) Fs); easy].
        unfold has_children, first_child in Eh. rewrite (r_first _ _ (iv_rep _ _ I2)), HC in Eh.
        destruct (Nat.eqb_spec c p); [lia|]. destruct (children_of Fs c) eqn:Ek; [|easy].
        exists (T c []). split; [easy|]. split; [constructor; easy|]. intros x [<-|[]]. easy. }
    destruct H1 as ((t & <- & Ht & Hcp) & F1 & I1 & O1).
    replace (pre ++ t_node t :: r) with ((pre ++ [t_node t]) ++ r) in Hs, El by now rewrite <- app_assoc.
    destruct (IHf r (pre ++ [t_node t]) s1 F1 s' I1) as ((ts & Ets & Hall & Hcps) & Hrest); try easy.
    { now apply (old_trans k D F s Fs). }
    split; [|easy]. destruct (tree_old k D F s Fs t C Os Hc Ht) as (Ht' & Hlt).
    exists (t :: ts). split; [cbn; now rewrite Ets|]. split; [now constructor|]. cbn [flat_map]. intros x Hx.
    apply in_app_iff in Hx. destruct Hx as [Hx|Hx]; [|now apply Hcps].
    apply (copyable_old k D F s Fs x C Os); [now apply Hlt|now apply Hcp]. }
  destruct (Hloop fuel (children_of F n) [] D F D' I (old_refl k D F) eq_refl H) as ((ts & Ets & Hall & Hcp) & Hrest).
  split; [|easy]. exists (T n ts). split; [easy|]. split; [|easy]. constructor; [now rewrite Ets|easy].
Qed.

Lemma deep_mono : forall f f' p n D, f <= f' -> make_deep_copy f p n D <> Diverge ->
  make_deep_copy f' p n D = make_deep_copy f p n D.
Proof.
  induction f as [|f IH]; intros f' p n D Hf H; [easy|]. destruct f' as [|f']; [lia|].
  cbn [make_deep_copy] in *. apply (for_children_mono lk); [|lia|exact H].
  intros c s Hs. cbv beta in *. destruct (copy_node c s) as [r| |]; cbn [bind] in *; [|easy|easy].
  destruct (append [] p (fst r) (lk (snd r))) as [L| |]; cbn [bind] in *; [|easy|easy].
  destruct (has_children _ c); [|easy]. apply IH; [lia|exact Hs].
Qed.

Lemma deep_any_fuel D F n r fuel D' : InvF D F -> n < fresh D -> copy_node n D = Ok r ->
  make_deep_copy fuel (fst r) n (snd r) = Ok D' ->
  (exists t, t_node t = n /\ tree_at F t /\ forall x, In x (preorder t) -> copyable D x) /\
  copy_node_deep n D = Ok (fst r, D').
Proof.
  intros I Hn Er Ed. destruct (copy_ok D F n r I Hn Er) as (Cn & En & I1 & Hl & Hf & Hsame).
  assert (O : old (fresh D) D F (snd r) F) by (split; [lia|]; intros x Hx; split; [easy|]; now apply Hsame).
  assert (C : closed (fresh D) D F).
  { split; [easy|]. split; [intros x c _; now apply (child_exists D F x)|].
    intros x a t Hx Ha Ht. apply (target_exists D F x t I). apply count_links_pos. now exists a. }
  destruct (deep_ok (fresh D) fuel (fst r) n (snd r) F D' I1 (closed_old _ _ _ _ _ C O)) as ((t & <- & Ht & Hcp) & _);
    [lia|lia|easy|easy|].
  assert (Hpre : preorder t = t_node t :: flat_map preorder (t_kids t)) by (destruct t; easy).
  assert (Hall : forall x, In x (preorder t) -> copyable D x).
  { intros x Hx. pose proof (tree_nodes_exist D F t I Ht Hn x Hx) as Hlt. rewrite Hpre in Hx. destruct Hx as [<-|Hx]; [easy|].
    apply (copyable_old (fresh D) D F (snd r) F x C O Hlt). now apply Hcp. }
  split; [exists t; easy|].
  destruct (copy_node_deep_spec D F t I Ht Hn Hall) as (D2 & F2 & u & E2 & _). rewrite E2.
  unfold copy_node_deep in E2. rewrite Er in E2. cbn [bind] in E2.
  destruct (make_deep_copy (enough D) (fst r) (t_node t) (snd r)) as [D3| |] eqn:E3; cbn [bind] in E2; [|easy|easy].
  injection E2 as <- <-. f_equal. f_equal.
  pose proof (deep_mono fuel (fuel + enough D) (fst r) (t_node t) (snd r) ltac:(lia)) as M1.
  pose proof (deep_mono (enough D) (fuel + enough D) (fst r) (t_node t) (snd r) ltac:(lia)) as M2.
  rewrite Ed in M1. rewrite E3 in M2. rewrite M1 in M2 by easy. now injection (M2 ltac:(easy)).
Qed.

Lemma deep_exact D F n : InvF D F -> n < fresh D ->
  (exists r, copy_node_deep n D = Ok r) <->
  exists t, t_node t = n /\ tree_at F t /\ forall x, In x (preorder t) -> copyable D x.
Proof.
  intros I Hn. split.
  - intros (r & E). unfold copy_node_deep in E. destruct (copy_node n D) as [r1| |] eqn:E1; cbn [bind] in E; [|easy|easy].
    destruct (make_deep_copy (enough D) (fst r1) n (snd r1)) as [D2| |] eqn:E2; cbn [bind] in E; [|easy|easy].
    apply (deep_any_fuel D F n r1 (enough D) D2 I Hn E1 E2).
  - intros (t & <- & Ht & Hc). destruct (copy_node_deep_spec D F t I Ht Hn Hc) as (D2 & F2 & u & E2 & _). eauto.
Qed.

Lemma tree_new k D F D' F' t : closed k D F -> old k D F D' F' -> t_node t < k -> tree_at F t -> tree_at F' t.
Proof.
  intros (_ & Hc & _) (_ & A). induction t as [n ts IH] using tree_ind'. intros Hn Ht. cbn [t_node] in Hn.
  inversion Ht as [? ? E Hall]; subst. destruct (A n Hn) as (Ec & _). rewrite Forall_forall in IH, Hall.
  constructor; [now rewrite Ec|]. rewrite Forall_forall. intros c Hcin. apply IH; auto.
  apply (Hc n); [easy|]. rewrite E. now apply in_map.
Qed.
Lemma copy_stops D F n : InvF D F -> n < fresh D -> copy_node n D <> Diverge.
Proof.
  intros I Hn. unfold copy_node. destruct (node_type D n); try (unfold create_node; destruct (_ || _); [easy|]).
  all: try (unfold alloc, slab_insert; destruct (Nat.eqb _ _); [easy|]; now destruct (nth_error _ _) as [[]|]).
  unfold create_element. destruct (empty_tag _); [easy|]. unfold alloc, slab_insert.
  assert (G : forall l src elem E, copy_attrs src elem l E <> Diverge).
  { assert (Hr : forall a x E, remove_attribute a x E <> Diverge).
    { intros a x E. unfold remove_attribute. destruct (negb _); [easy|].
      destruct (attrs_get_value _ _) as [v|]; [|easy]. destruct (link_target v) as [t|]; [|easy].
      destruct (position _ _); [|easy]. unfold borrow_mut. now destruct (mem _ _). }
    assert (Hl : forall a x y fb E, set_link_attribute a x y fb E <> Diverge).
    { intros a x y fb E. unfold set_link_attribute. destruct (negb _); [easy|]. destruct (str_eqb _ _); [easy|].
      destruct (existsb _ _); [easy|]. specialize (Hr a x E). now destruct (remove_attribute a x E). }
    assert (Hs : forall a x E, set_attribute a x E <> Diverge).
    { intros a x E. unfold set_attribute, set_attribute_checked. destruct (negb _); [easy|].
      assert (Hp : forall r : res (dom * result), r <> Diverge ->
        (r <- r ;; match r with (D, ROk) => Ok D | (_, RErr _) => Panic PUnwrap end) <> Diverge).
      { intros [[? []]| |] H; easy. }
      apply Hp. unfold set_simple_attribute. specialize (Hr a (a_name x) E).
      destruct (a_value x); try apply Hl.
      all: destruct (is_link_container _); [easy|]; now destruct (remove_attribute a (a_name x) E). }
    induction l as [|a l IH]; intros src elem E; cbn [copy_attrs]; [easy|].
    specialize (Hs elem a E). destruct (link_target (a_value a)) as [t|]; [destruct (_ && _); [easy|]|].
    all: destruct (set_attribute elem a E); cbn [bind]; [apply IH|easy|easy]. }
  destruct (Nat.eqb _ _); cbn [bind]; [|destruct (nth_error _ _) as [[]|]; cbn [bind]; try easy].
  all: match goal with |- context [copy_attrs ?a ?b ?c ?d] => specialize (G c a b d); now destruct (copy_attrs a b c d) end.
Qed.

Lemma deep_finite k : forall t fuel p D F, length (preorder t) < fuel -> InvF D F -> closed k D F -> k <= p ->
  p < fresh D -> t_node t < k -> tree_at F t -> make_deep_copy fuel p (t_node t) D <> Diverge.
Proof.
  induction t as [n ts IH] using tree_ind'. intros fuel p D F Hfuel I C Hkp Hp Hn Ht.
  destruct fuel as [|fuel]; [lia|]. cbn [make_deep_copy t_node] in *.
  rewrite (children_it (lk D) F n (iv_rep D F I)).
  set (body := fun child D =>
           r <- copy_node child D ;;
           let new_node := fst r in
           L <- append [] p new_node (lk (snd r)) ;;
           let D := with_lk L (snd r) in
           if has_children (lk D) child then make_deep_copy fuel new_node child D else Ok D).
  inversion Ht as [? ? Ec Hall]; subst. rewrite Forall_forall in IH, Hall.
  assert (Hsz : forall c, In c ts -> length (preorder c) < fuel).
  { intros c Hc. pose proof (kid_size (T n ts) c Hc). lia. }
  assert (Hlen : length ts < fuel) by (pose proof (kids_length (T n ts)); cbn [t_kids] in *; lia).
  assert (Hloop : forall f cs pre s Fs, length cs < f -> (forall c, In c cs -> In c ts) ->
    InvF s Fs -> old k D F s Fs -> children_of F n = pre ++ map t_node cs ->
    for_children lk f body (mkChildren (hd_error (map t_node cs)) (last_error (pre ++ map t_node cs))) s <> Diverge).
  { induction f as [|f IHf]; intros cs pre s Fs Hlf Hin Is Os El; [lia|]. cbn [for_children].
    assert (Els : children_of Fs n = pre ++ map t_node cs) by (destruct Os as (_ & A); destruct (A n Hn) as (-> & _); easy).
    rewrite (CopyProofs.children_next_at (lk s) Fs n pre _ (iv_rep s Fs Is) Els).
    destruct cs as [|c cs]; cbn [map]; [easy|].
    assert (Hcts : In c ts) by (apply Hin; now left).
    assert (Hc : t_node c < k) by (apply (proj1 (proj2 C) n); [easy|]; rewrite Ec; now apply in_map).
    pose proof (closed_old k D F s Fs C Os) as Cs.
    assert (Hb : body (t_node c) s <> Diverge /\ forall s1, body (t_node c) s = Ok s1 -> exists F1, InvF s1 F1 /\ old k s Fs s1 F1).
    { unfold body. assert (Hcf : t_node c < fresh s) by (pose proof (proj1 Cs); lia).
      pose proof (copy_stops s Fs (t_node c) Is Hcf) as Hst.
      destruct (copy_node (t_node c) s) as [rr| |] eqn:Ecp; cbn [bind]; [|easy|easy].
      destruct (copy_ok s Fs (t_node c) rr Is Hcf Ecp) as (Cc & En & I1 & Hl & Hf & Hsame).
      pose proof (append_refines [] p (fst rr) (lk (snd rr)) Fs (iv_rep _ _ I1)) as Hr.
      destruct (append [] p (fst rr) (lk (snd rr))) as [L| |] eqn:Ea; cbn [bind]; [|easy|].
      2:{ destruct (Nat.eqb p (fst rr)); [easy|]. destruct (append_conflict _ _ _ _); [easy|]. destruct Hr as (? & ? & _). easy. }
      clear Hr. assert (Hps : p < fresh s) by (pose proof (proj1 Os); lia).
      assert (I2 : InvF (with_lk L (snd rr)) (f_append p (fst rr) Fs)) by (apply append_inv; [easy|lia|lia|easy]).
      pose proof (r_wf _ _ (iv_rep s Fs Is)) as W.
      assert (Hiso : isolated Fs (fst rr)) by (apply (iv_iso s Fs Is); lia).
      destruct (append_iso Fs p (fst rr) W Hiso ltac:(lia)) as (HC & _).
      assert (O2 : old k s Fs (with_lk L (snd rr)) (f_append p (fst rr) Fs)).
      { split; [cbn; lia|]. intros x Hx. split.
        - rewrite HC. destruct (Nat.eqb_spec x p); [lia|easy].
        - apply Hsame. pose proof (proj1 Cs). lia. }
      assert (C2 : closed k (with_lk L (snd rr)) (f_append p (fst rr) Fs)) by now apply (closed_old k s Fs).
      assert (T2 : tree_at (f_append p (fst rr) Fs) c).
      { apply (tree_new k s Fs _ _ c Cs O2 Hc). apply (tree_new k D F _ _ c C Os Hc). now apply Hall. }
      assert (Hk2 : k <= fst rr) by (pose proof (proj1 Cs); lia).
      assert (Hl2 : fst rr < fresh (with_lk L (snd rr))) by (cbn; lia).
      destruct (has_children _ (t_node c)).
      - split; [now apply (IH c Hcts fuel (fst rr) _ _ (Hsz c Hcts) I2 C2)|].
        intros s1 E1. destruct (deep_ok k fuel (fst rr) (t_node c) _ _ s1 I2 C2 Hk2 Hl2 Hc E1) as (_ & F1 & I3 & O3).
        exists F1. split; [easy|]. now apply (old_trans k s Fs _ _ _ _ O2).
      - split; [easy|]. intros s1 [= <-]. now exists (f_append p (fst rr) Fs). }
    destruct (body (t_node c) s) as [s1| |]; cbn [bind]; [|easy|now destruct Hb].
    destruct Hb as (_ & Hb). destruct (Hb s1 eq_refl) as (F1 & I1 & O1).
    replace (pre ++ t_node c :: map t_node cs) with ((pre ++ [t_node c]) ++ map t_node cs) by now rewrite <- app_assoc.
    apply (IHf cs (pre ++ [t_node c]) s1 F1); [cbn in Hlf; lia| |easy|now apply (old_trans k D F s Fs)|].
    - intros d Hd. apply Hin. now right.
    - rewrite <- app_assoc. exact El. }
  rewrite Ec. apply (Hloop fuel ts [] D F); [easy|easy|easy|apply old_refl|easy].
Qed.

Lemma deep_panics D F t : InvF D F -> tree_at F t -> t_node t < fresh D ->
  (exists x, In x (preorder t) /\ ~ copyable D x) -> exists q, copy_node_deep (t_node t) D = Panic q.
Proof.
  intros I Ht Hn (x & Hx & Hnc).
  destruct (copy_node_deep (t_node t) D) as [r|q|] eqn:E; [exfalso|eauto|exfalso].
  - destruct (proj1 (deep_exact D F (t_node t) I Hn) (ex_intro _ r E)) as (u & Eu & Hu & Hc).
    apply Hnc, Hc. now rewrite (tree_at_unique F u Hu t Ht Eu).
  - unfold copy_node_deep in E. pose proof (copy_stops D F (t_node t) I Hn) as Hst.
    destruct (copy_node (t_node t) D) as [r1| |] eqn:E1; cbn [bind] in E; [|easy|easy].
    destruct (copy_ok D F (t_node t) r1 I Hn E1) as (Cn & En & I1 & Hl & Hf & Hsame).
    assert (O : old (fresh D) D F (snd r1) F) by (split; [lia|]; intros y Hy; split; [easy|]; now apply Hsame).
    assert (C : closed (fresh D) D F).
    { split; [easy|]. split; [intros y c _; now apply (child_exists D F y)|].
      intros y a u Hy Ha Hu. apply (target_exists D F y u I). apply count_links_pos. now exists a. }
    pose proof (tree_size D F t I Ht Hn) as Hsz.
    apply (deep_finite (fresh D) t (enough D) (fst r1) (snd r1) F); try easy.
    + unfold enough. lia.
    + now apply (closed_old _ D F).
    + lia.
    + lia.
    + now destruct (make_deep_copy (enough D) (fst r1) (t_node t) (snd r1)).
Qed.

(* ---- for reachable documents *)
Lemma drain_any_api D F t f : reachable D -> shows (lk D) F -> tree_at F t -> exists_node D (t_node t) ->
  exists D' F' ms, drain (t_node t) f D = Ok (D', length ms) /\ drained_by f D D' (t_kids t) ms /\
    shows (lk D') F' /\ pruned (flat_map preorder ms) F F'.
Proof.
  intros H S Ht Hn. destruct (drain_any D F t f (shows_inv D F H S) Ht Hn) as (D' & ms & E & I & B).
  exists D', (f_prune (flat_map preorder ms) F), ms. split; [easy|]. split; [easy|]. split; [apply shows_Rep, I|].
  apply prune_pruned.
Qed.
Lemma drain_exact_api D F n f : reachable D -> shows (lk D) F -> exists_node D n ->
  (finite_at F n /\ exists r, drain n f D = Ok r) \/
  (~ finite_at F n /\ forall fuel, drain_loop fuel f (first_child (lk D) n) (D, 0) = Diverge).
Proof. intros H S Hn. exact (drain_exact D F n f (shows_inv D F H S) Hn). Qed.
Lemma deep_exact_api D F n : reachable D -> shows (lk D) F -> exists_node D n ->
  (exists r, copy_node_deep n D = Ok r) <->
  exists t, t_node t = n /\ tree_at F t /\ forall x, In x (preorder t) -> copyable D x.
Proof. intros H S Hn. exact (deep_exact D F n (shows_inv D F H S) Hn). Qed.
Lemma deep_panics_api D F t : reachable D -> shows (lk D) F -> tree_at F t -> exists_node D (t_node t) ->
  (exists x, In x (preorder t) /\ ~ copyable D x) -> exists q, copy_node_deep (t_node t) D = Panic q.
Proof. intros H S Ht Hn. exact (deep_panics D F t (shows_inv D F H S) Ht Hn). Qed.
Lemma deep_infinite_api D F n m D1 : reachable D -> shows (lk D) F -> exists_node D n -> ~ finite_at F n ->
  copy_node n D = Ok (m, D1) -> forall fuel D', make_deep_copy fuel m n D1 <> Ok D'.
Proof.
  intros H S Hn Hf E fuel D' E'.
  destruct (deep_any_fuel D F n (m, D1) fuel D' (shows_inv D F H S) Hn E E') as ((t & <- & Ht & _) & _).
  apply Hf. now exists t.
Qed.
