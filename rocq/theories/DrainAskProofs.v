From Coq Require Import List Bool PeanoNat NArith Lia.
From Verif Require Import Base Ids Links Tree Iter ForestSpec ListFacts TreeProofs ForestFacts IterSpec IterProofs
  PruneFacts Data Attrs Slab SlabProofs NodeApi Doc AttrFacts LinkProofs DocSpec RemoveProofs History InvProofs HistoryProofs
  DrainProofs CopyProofs Loops RemoveExact TreeSpec TreeApi ApiProofs DocApi LoopSpec LoopExact DrainEdit DrainEditSpec DrainEditProofs
  DrainAsk DrainAskSpec.
Import ListNotations.

Lemma session_trans {M} (f : asker M) m D c1 m1 D1 c2 m2 D2 :
  session f m D c1 m1 D1 -> session f m1 D1 c2 m2 D2 -> session f m D (c1 ++ c2) m2 D2.
Proof.
  intros H1 H2. induction H2 as [|c m2 D2 n m3 _ IH E|c m2 D2 n m3 D3 _ IH E Er].
  - now rewrite app_nil_r.
  - rewrite app_assoc. now apply (ss_no f m D _ m2).
  - rewrite app_assoc. now apply (ss_yes f m D _ m2 D2).
Qed.
Lemma yes_app c1 c2 : yes (c1 ++ c2) = yes c1 ++ yes c2.
Proof. unfold yes. now rewrite filter_app, map_app. Qed.
Lemma order_ext s1 s2 : forall t, (forall x, In x (preorder t) -> mem x s1 = mem x s2) -> order s1 t = order s2 t.
Proof.
  fix IH 1. intros [n ts] H. cbn [order]. rewrite (H n) by now left. f_equal. destruct (mem n s2); [reflexivity|].
  assert (G : forall x, In x (flat_map preorder ts) -> mem x s1 = mem x s2) by (intros x Hx; apply H; now right).
  clear H. induction ts as [|t ts IHts]; [reflexivity|]. cbn [flat_map] in *. f_equal.
  - apply IH. intros x Hx. apply G, in_app_iff. now left.
  - apply IHts. intros x Hx. apply G, in_app_iff. now right.
Qed.
Lemma orders_ext s1 s2 ts : (forall x, In x (flat_map preorder ts) -> mem x s1 = mem x s2) ->
  flat_map (order s1) ts = flat_map (order s2) ts.
Proof.
  intros H. induction ts as [|t ts IHts]; [reflexivity|]. cbn [flat_map] in *. f_equal.
  - apply order_ext. intros x Hx. apply H, in_app_iff. now left.
  - apply IHts. intros x Hx. apply H, in_app_iff. now right.
Qed.
Lemma mem_app x l1 l2 : mem x (l1 ++ l2) = mem x l1 || mem x l2.
Proof. unfold mem. apply existsb_app. Qed.
Lemma tops_in ts ms : (forall m, In m ms -> In m (flat_map subtrees ts)) ->
  forall x, In x (map t_node ms) -> In x (flat_map preorder ts).
Proof.
  intros H x Hx. apply (subs_pre ts ms H). apply in_map_iff in Hx. destruct Hx as (t & <- & Ht).
  apply in_flat_map. exists t. split; [exact Ht|apply preorder_self].
Qed.
Lemma mem_out x l : ~ In x l -> mem x l = false.
Proof. apply mem_not_In. Qed.

(* What the loop did with the trees [ts]. *)
Definition loop_done {M} (f : asker M) m D F k (ts : list tree) (r : res (M * dom * option nat)) : Prop :=
  exists c m1 m' D' o ms, r = Ok (m', D', o) /\ session f m D c m1 D' /\ reachable D' /\
    InvF D' (f_prune (flat_map preorder ms) F) /\ removed (flat_map preorder ms) D D' /\ map t_node ms = yes c /\
    (forall t, In t ms -> In t (flat_map subtrees ts)) /\
    ((o = Some (k + length ms) /\ m' = m1 /\ flat_map (order (yes c)) ts = map fst c) \/
     (o = None /\ exists n rest, f m1 D' n = (m', None) /\ flat_map (order (yes c)) ts = map fst c ++ n :: rest)).

Lemma a_loop_spec {M} (f : asker M) : forall fuel ts m D F k,
  length (flat_map preorder ts) < fuel ->
  reachable D -> InvF D F -> Forall (tree_at F) ts -> at_head F ts -> NoDup (flat_map preorder ts) ->
  (forall x, In x (flat_map preorder ts) -> x < fresh D) ->
  loop_done f m D F k ts (a_drain_loop fuel f (hd_error (map t_node ts)) m D k).
Proof.
  induction fuel as [|fuel IH]; intros ts m D F k Hfuel Rd I Hall Hhd Hnd Hlt; [lia|].
  destruct ts as [|t ts].
  { cbn. exists [], m, m, D, (Some k), []. split; [easy|]. split; [constructor|]. split; [exact Rd|]. split.
    - eapply InvF_ext; [|exact I]. apply forest_eq_sym, f_prune_nil.
    - split; [apply removed_nil|]. split; [easy|]. split; [easy|]. left. cbn. now rewrite Nat.add_0_r. }
  pose proof (r_wf _ _ (iv_rep D F I)) as W.
  cbn [flat_map] in Hnd, Hlt, Hfuel. destruct Hhd as (pre & Hsib).
  inversion Hall as [|? ? Ht Hts]; subst.
  assert (Hdisj : forall x, In x (preorder t) -> ~ In x (flat_map preorder ts))
    by (intros x; now apply NoDup_app_disj).
  assert (Hndts : NoDup (flat_map preorder ts)) by now apply NoDup_app_r in Hnd.
  assert (Hself : In (t_node t) (preorder t)) by apply preorder_self.
  pose proof (wf_nodup F W (t_node t)) as Hns. rewrite Hsib in Hns. cbn [map] in Hsib, Hns.
  assert (Hafter : forall S, (forall x, In x S -> In x (preorder t)) ->
    Forall (tree_at (f_prune S F)) ts /\
    (at_head (f_prune S F) ts) /\
    (~ In (t_node t) S -> siblings_of (f_prune S F) (t_node t) = without S pre ++ t_node t :: map t_node ts)).
  { intros S HS.
    assert (Hout : forall x, In x (map t_node ts) -> ~ In x S).
    { intros x Hx Hin. apply HS in Hin. apply (Hdisj x Hin). apply in_map_iff in Hx. destruct Hx as (c & <- & Hc).
      apply in_flat_map. exists c. split; [easy|apply preorder_self]. }
    split; [|split].
    - rewrite Forall_forall in Hts |- *. intros c Hc. apply tree_at_prune; [now apply Hts|].
      intros x Hx Hin. apply HS in Hin. apply (Hdisj x Hin). apply in_flat_map. now exists c.
    - pose proof (siblings_hd F (t_node t) ts pre _ W Hsib eq_refl) as Hh. destruct ts as [|r ts']; [easy|].
      exists (without S (pre ++ [t_node t])). cbn [f_prune siblings_of].
      replace (mem (t_node r) S) with false.
      2:{ symmetry. apply mem_not_In, Hout. now left. }
      rewrite Hh. unfold without at 1. rewrite filter_app. f_equal.
      change (filter (fun x => negb (mem x S))) with (without S). now apply without_none.
    - intros Hn. cbn [f_prune siblings_of]. replace (mem (t_node t) S) with false by (symmetry; now apply mem_not_In).
      rewrite Hsib. unfold without at 1. rewrite filter_app. f_equal.
      change (filter (fun x => negb (mem x S))) with (without S). apply without_none.
      intros x [<-|Hx]; [easy|]. now apply Hout. }
  cbn [map hd_error a_drain_loop].
  assert (Hn : exists_node D (t_node t)) by (apply Hlt, in_app_iff; now left).
  assert (Hord : forall s, order s t = t_node t :: if mem (t_node t) s then [] else flat_map (order s) (t_kids t))
    by (intros s; now destruct t).
  destruct (f m D (t_node t)) as [m0 [b|]] eqn:Ef.
  2:{ (* the closure panics *)
      exists [], m, m0, D, None, []. split; [easy|]. split; [constructor|]. split; [exact Rd|]. split.
      - eapply InvF_ext; [|exact I]. apply forest_eq_sym, f_prune_nil.
      - split; [apply removed_nil|]. split; [easy|]. split; [easy|]. right. split; [easy|].
        cbn [flat_map map app]. rewrite Hord. eexists (t_node t), _. split; [exact Ef|]. cbn [app]. reflexivity. }
  destruct b.
  - (* t is removed *)
    assert (Hnx : next_sibling (lk D) (t_node t) = hd_error (map t_node ts)).
    { unfold next_sibling. rewrite (r_next _ _ (iv_rep D F I)), Hsib. now apply succ_in_at. }
    rewrite Hnx.
    destruct (remove_node_spec D F t I Ht Hn) as (D1 & Er & I1 & Hr1).
    rewrite Er. cbn [bind]. destruct (Hafter (preorder t)) as (Hts1 & Hhd1 & _); [easy|].
    destruct (removal D (t_node t) D1 Rd Hn Er) as (R1 & _).
    destruct (IH ts m0 D1 (f_prune (preorder t) F) (S k)) as (c & m1 & m' & D2 & o & ms & E2 & Hss & R2 & I2 & Hr2 & Hy & Hsub & Hcase); try easy.
    + rewrite app_length in Hfuel. destruct t. cbn in Hfuel. lia.
    + intros x Hx. rewrite (rv_fresh _ _ _ Hr1). apply Hlt, in_app_iff. now right.
    + exists ((t_node t, true) :: c), m1, m', D2, o, (t :: ms). split; [exact E2|].
      assert (Hs1 : session f m D [(t_node t, true)] m0 D1).
      { apply (ss_yes f m D [] m D (t_node t) m0 D1); [constructor|exact Ef|exact Er]. }
      split; [exact (session_trans f m D _ m0 D1 c m1 D2 Hs1 Hss)|]. split; [exact R2|]. cbn [flat_map length]. split.
      { eapply InvF_ext; [|exact I2]. apply f_prune_prune. }
      split; [now apply (removed_app (preorder t) _ D D1)|].
      change (yes ((t_node t, true) :: c)) with (t_node t :: yes c). cbn [map fst].
      split; [now rewrite Hy|]. split.
      { intros u [<-|Hu]; apply in_app_iff; [left; apply subtrees_self|right; now apply Hsub]. }
      assert (Ho : flat_map (order (t_node t :: yes c)) ts = flat_map (order (yes c)) ts).
      { apply orders_ext. intros x Hx. change (mem x (t_node t :: yes c)) with (Nat.eqb x (t_node t) || mem x (yes c)).
        replace (Nat.eqb x (t_node t)) with false; [reflexivity|].
        symmetry. apply Nat.eqb_neq. intros ->. exact (Hdisj _ Hself Hx). }
      assert (Ht1 : order (t_node t :: yes c) t = [t_node t]).
      { rewrite Hord. change (mem (t_node t) (t_node t :: yes c)) with (Nat.eqb (t_node t) (t_node t) || mem (t_node t) (yes c)).
        now rewrite Nat.eqb_refl. }
      rewrite Ho, Ht1. cbn [app].
      destruct Hcase as [(-> & -> & ->)|(-> & n & rest & Hp & ->)].
      * left. split; [f_equal; lia|]. now split.
      * right. split; [easy|]. now exists n, rest.
  - (* t is kept *)
    set (kids := t_kids t) in *.
    assert (Hkids : children_of F (t_node t) = map t_node kids) by (apply tree_at_children; easy).
    assert (Hpre : preorder t = t_node t :: flat_map preorder kids) by (unfold kids; destruct t; easy).
    assert (Hkat : Forall (tree_at F) kids) by (unfold kids; destruct Ht; easy).
    pose proof (preorder_nodup F t W Ht) as Hndt. rewrite Hpre in Hndt.
    assert (Hnk : ~ In (t_node t) (flat_map preorder kids)) by now inversion Hndt.
    assert (Hs0 : session f m D [(t_node t, false)] m0 D).
    { apply (ss_no f m D [] m D (t_node t) m0); [constructor|exact Ef]. }
    assert (H1 : loop_done f m0 D F k kids (if has_children (lk D) (t_node t)
                  then a_drain_loop fuel f (first_child (lk D) (t_node t)) m0 D k else Ok (m0, D, Some k))).
    { unfold has_children, first_child. rewrite (r_first _ _ (iv_rep D F I)), Hkids.
      destruct (hd_error (map t_node kids)) as [c|] eqn:Em.
      - rewrite <- Em. apply (IH kids m0 D F k); try easy.
        + rewrite app_length, Hpre in Hfuel. cbn in Hfuel. lia.
        + unfold at_head. destruct kids as [|c0 kids']; [easy|]. exists []. cbn [app]. rewrite <- Hkids.
          apply child_siblings; [easy|]. rewrite Hkids. now left.
        + now inversion Hndt.
        + intros x Hx. apply Hlt, in_app_iff. left. rewrite Hpre. now right.
      - assert (Ek : kids = []) by (destruct kids; [easy|discriminate]).
        rewrite Ek. exists [], m0, m0, D, (Some k), []. split; [easy|]. split; [constructor|]. split; [exact Rd|]. split.
        + eapply InvF_ext; [|exact I]. apply forest_eq_sym, f_prune_nil.
        + split; [apply removed_nil|]. split; [easy|]. split; [easy|]. left. cbn. now rewrite Nat.add_0_r. }
    destruct H1 as (c1 & m1 & m1' & D1 & o1 & ms1 & E1 & Hss1 & R1 & I1 & Hr1 & Hy1 & Hsub1 & Hcase1). rewrite E1. cbn [bind].
    assert (Hin1 : forall x, In x (yes c1) -> In x (flat_map preorder kids)) by (rewrite <- Hy1; now apply tops_in).
    pose proof (session_trans f m D _ m0 D c1 m1 D1 Hs0 Hss1) as Hss01. cbn [app] in Hss01.
    assert (Hsubt : forall u, In u ms1 -> In u (flat_map subtrees (t :: ts))).
    { intros u Hu. cbn [flat_map]. apply in_app_iff. left. apply Hsub1 in Hu. unfold kids in Hu. destruct t as [n ks]. now right. }
    assert (Hyt : mem (t_node t) (yes c1) = false) by (apply mem_out; intros H; exact (Hnk (Hin1 _ H))).
    destruct Hcase1 as [(-> & -> & Ho1)|(-> & n & rest & Hp & Ho1)].
    2:{ exists ((t_node t, false) :: c1), m1, m1', D1, None, ms1. split; [easy|]. split; [exact Hss01|]. split; [exact R1|].
        split; [exact I1|]. split; [exact Hr1|]. change (yes ((t_node t, false) :: c1)) with (yes c1). split; [exact Hy1|].
        split; [exact Hsubt|]. right. split; [easy|]. exists n, (rest ++ flat_map (order (yes c1)) ts).
        split; [exact Hp|]. cbn [flat_map map fst]. rewrite Hord, Hyt, Ho1. cbn [app]. f_equal.
        now rewrite <- app_assoc. }
    set (S1 := flat_map preorder ms1) in *.
    assert (HS1 : forall x, In x S1 -> In x (flat_map preorder kids)) by (intros x; now apply (subs_pre kids ms1)).
    assert (Hnot : ~ In (t_node t) S1) by (intros H; exact (Hnk (HS1 _ H))).
    destruct (Hafter S1) as (Hts1 & Hhd1 & Hsib1).
    { intros x Hx. rewrite Hpre. right. now apply HS1. }
    assert (Hnx : next_sibling (lk D1) (t_node t) = hd_error (map t_node ts)).
    { unfold next_sibling. rewrite (r_next _ _ (iv_rep D1 _ I1)), (Hsib1 Hnot).
      apply succ_in_at. rewrite <- (Hsib1 Hnot). apply (wf_nodup _ (r_wf _ _ (iv_rep D1 _ I1))). }
    rewrite Hnx.
    destruct (IH ts m1 D1 (f_prune S1 F) (k + length ms1)) as (c2 & m2 & m2' & D2 & o2 & ms2 & E2 & Hss2 & R2 & I2 & Hr2 & Hy2 & Hsub2 & Hcase2); try easy.
    + rewrite app_length in Hfuel. destruct t. cbn in Hfuel. lia.
    + intros x Hx. rewrite (rv_fresh _ _ _ Hr1). apply Hlt, in_app_iff. now right.
    + assert (Hin2 : forall x, In x (yes c2) -> In x (flat_map preorder ts)) by (rewrite <- Hy2; now apply tops_in).
      exists ((t_node t, false) :: c1 ++ c2), m2, m2', D2, o2, (ms1 ++ ms2). split; [exact E2|].
      split; [exact (session_trans f m D _ m1 D1 c2 m2 D2 Hss01 Hss2)|]. split; [exact R2|].
      rewrite flat_map_app. split.
      { eapply InvF_ext; [|exact I2]. apply f_prune_prune. }
      split; [now apply (removed_app S1 _ D D1)|].
      change (yes ((t_node t, false) :: c1 ++ c2)) with (yes (c1 ++ c2)). rewrite yes_app, map_app.
      split; [now rewrite Hy1, Hy2|]. split.
      { intros u Hu. apply in_app_iff in Hu. destruct Hu as [Hu|Hu]; [now apply Hsubt|]. cbn [flat_map]. apply in_app_iff. right. now apply Hsub2. }
      assert (Hok : flat_map (order (yes c1 ++ yes c2)) kids = map fst c1).
      { rewrite <- Ho1. apply orders_ext. intros x Hx. rewrite mem_app, (mem_out x (yes c2)); [apply orb_false_r|].
        intros H. apply (Hdisj x); [rewrite Hpre; now right|now apply Hin2]. }
      assert (Hots : flat_map (order (yes c1 ++ yes c2)) ts = flat_map (order (yes c2)) ts).
      { apply orders_ext. intros x Hx. rewrite mem_app, (mem_out x (yes c1)); [reflexivity|].
        intros H. apply (Hdisj x); [rewrite Hpre; right; now apply Hin1|exact Hx]. }
      assert (Hot : order (yes c1 ++ yes c2) t = t_node t :: map fst c1).
      { rewrite Hord, mem_app, Hyt, (mem_out _ (yes c2)); [cbn [orb]; now rewrite Hok|].
        intros H. exact (Hdisj _ Hself (Hin2 _ H)). }
      cbn [flat_map map fst]. rewrite Hot, Hots, map_app. cbn [app].
      destruct Hcase2 as [(-> & -> & ->)|(-> & n & rest & Hp & ->)].
      * left. split; [rewrite app_length; f_equal; lia|]. now split.
      * right. split; [easy|]. exists n, rest. split; [exact Hp|]. now rewrite app_assoc.
Qed.

Theorem a_drain_spec {M} D F t (f : asker M) m : reachable D -> shows (lk D) F -> tree_at F t -> exists_node D (t_node t) ->
  exists c m1 m' D' o ms F', a_drain (t_node t) f m D = Ok (m', D', o) /\ session f m D c m1 D' /\ reachable D' /\
    map t_node ms = yes c /\ (forall u, In u ms -> In u (flat_map subtrees (t_kids t))) /\
    removed (flat_map preorder ms) D D' /\ shows (lk D') F' /\ pruned (flat_map preorder ms) F F' /\
    ((o = Some (length (yes c)) /\ m' = m1 /\ flat_map (order (yes c)) (t_kids t) = map fst c) \/
     (o = None /\ exists n rest, f m1 D' n = (m', None) /\ flat_map (order (yes c)) (t_kids t) = map fst c ++ n :: rest)).
Proof.
  intros R Hs Ht Hn. pose proof (shows_inv D F R Hs) as I. pose proof (r_wf _ _ (iv_rep D F I)) as W.
  pose proof (preorder_nodup F t W Ht) as Hnd.
  assert (Hpre : preorder t = t_node t :: flat_map preorder (t_kids t)) by (destruct t; easy).
  rewrite Hpre in Hnd. inversion Hnd as [|? ? Hnin Hnd']; subst.
  pose proof (tree_size D F t I Ht Hn) as Hsz. rewrite Hpre in Hsz. cbn in Hsz.
  destruct (a_loop_spec f (S (enough D)) (t_kids t) m D F 0) as (c & m1 & m' & D' & o & ms & E & Hss & R' & I' & Hr & Hy & Hsub & Hcase); try easy.
  - unfold enough. lia.
  - destruct Ht; easy.
  - now apply kids_head.
  - intros x Hx. apply (tree_nodes_exist D F t); try easy. rewrite Hpre. now right.
  - exists c, m1, m', D', o, ms, (f_prune (flat_map preorder ms) F). split.
    { unfold a_drain, first_child. now rewrite (r_first _ _ (iv_rep D F I)), (tree_at_children F t Ht). }
    split; [exact Hss|]. split; [exact R'|]. split; [exact Hy|]. split; [exact Hsub|]. split; [exact Hr|].
    split; [apply shows_Rep, I'|]. split; [apply prune_pruned|].
    destruct Hcase as [(-> & -> & Ho)|Hp]; [left|now right]. rewrite <- Hy, map_length.
    split; [reflexivity|]. split; [reflexivity|]. now rewrite Hy.
Qed.

(* ---- no node twice *)
Lemma order_sub s : forall t x, In x (order s t) -> In x (preorder t).
Proof.
  fix IH 1. intros [n ts] x. cbn [order preorder]. intros [<-|H]; [now left|right].
  destruct (mem n s); [easy|]. induction ts as [|t ts IHts]; [easy|]. cbn [flat_map] in *. apply in_app_iff in H. apply in_app_iff.
  destruct H as [H|H]; [left; now apply IH|right; now apply IHts].
Qed.
Lemma orders_sub s ts x : In x (flat_map (order s) ts) -> In x (flat_map preorder ts).
Proof. rewrite !in_flat_map. intros (t & Ht & Hx). exists t. split; [exact Ht|now apply (order_sub s)]. Qed.
Lemma NoDup_append {A} (l1 l2 : list A) : NoDup l1 -> NoDup l2 -> (forall x, In x l1 -> ~ In x l2) -> NoDup (l1 ++ l2).
Proof.
  induction l1 as [|a l1 IH]; intros H1 H2 H; [easy|]. inversion H1 as [|? ? Ha H1']; subst. cbn. constructor.
  - rewrite in_app_iff. intros [Hi|Hi]; [easy|]. apply (H a); [now left|easy].
  - apply IH; [easy|easy|]. intros x Hx. apply H. now right.
Qed.
Lemma NoDup_left {A} (l1 l2 : list A) : NoDup (l1 ++ l2) -> NoDup l1.
Proof.
  induction l1 as [|a l1 IH]; intros H; [constructor|]. cbn in H. inversion H as [|? ? Ha Hd]; subst. constructor; [|now apply IH].
  intros Hi. apply Ha, in_app_iff. now left.
Qed.
Lemma order_nodup s : forall t, NoDup (preorder t) -> NoDup (order s t).
Proof.
  fix IH 1. intros [n ts] H. cbn [order preorder] in *. inversion H as [|? ? Hn Hd]; subst. clear H. destruct (mem n s).
  { constructor; [intros []|constructor]. }
  constructor; [intros Hi; exact (Hn (orders_sub s ts n Hi))|]. clear Hn.
  induction ts as [|t ts IHts]; [constructor|]. cbn [flat_map] in *. apply NoDup_append.
  - apply IH. now apply NoDup_left in Hd.
  - apply IHts. now apply NoDup_app_r in Hd.
  - intros x Hx Hx'. apply (NoDup_app_disj _ _ _ Hd (order_sub s t x Hx)). exact (orders_sub s ts x Hx').
Qed.
Lemma orders_nodup s ts : NoDup (flat_map preorder ts) -> NoDup (flat_map (order s) ts).
Proof.
  induction ts as [|t ts IHts]; intros Hd; [constructor|]. cbn [flat_map] in *. apply NoDup_append.
  - apply order_nodup. now apply NoDup_left in Hd.
  - apply IHts. now apply NoDup_app_r in Hd.
  - intros x Hx Hx'. apply (NoDup_app_disj _ _ _ Hd (order_sub s t x Hx)). exact (orders_sub s ts x Hx').
Qed.
Theorem asked_once D F t s : reachable D -> shows (lk D) F -> tree_at F t ->
  NoDup (flat_map (order s) (t_kids t)) /\ ~ In (t_node t) (flat_map (order s) (t_kids t)).
Proof.
  intros R Hs Ht. pose proof (shows_inv D F R Hs) as I. pose proof (preorder_nodup F t (r_wf _ _ (iv_rep D F I)) Ht) as Hnd.
  destruct t as [n ts]. cbn [preorder t_kids t_node] in *. inversion Hnd as [|? ? Hn Hd]; subst.
  split; [now apply orders_nodup|]. intros H. exact (Hn (orders_sub s ts n H)).
Qed.

(* ---- a closure without memory that does not panic *)
Lemma plain_loop {M} f (m : M) : forall fuel node D k,
  a_drain_loop fuel (fun m D n => (m, Some (f D n))) node m D k =
  (r <- drain_loop fuel f node (D, k) ;; Ok (m, fst r, Some (snd r))).
Proof.
  induction fuel as [|fuel IH]; intros node D k; [reflexivity|]. cbn [a_drain_loop drain_loop fst snd].
  destruct node as [n|]; [|reflexivity]. destruct (f D n).
  - destruct (remove_node n D); cbn [bind]; [apply IH|reflexivity|reflexivity].
  - destruct (has_children (lk D) n); [|cbn [bind fst]; apply IH]. rewrite IH.
    destruct (drain_loop fuel f (first_child (lk D) n) (D, k)) as [[D1 k1]| |]; cbn [bind fst snd]; [apply IH|reflexivity|reflexivity].
Qed.
Theorem plain_drain {M} root f (m : M) D :
  a_drain root (fun m D n => (m, Some (f D n))) m D = (r <- drain root f D ;; Ok (m, fst r, Some (snd r))).
Proof. exact (plain_loop f m (S (enough D)) _ D 0). Qed.
