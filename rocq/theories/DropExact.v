(* Drop for Document without the assumption that the tree has no cycles. *)
From Coq Require Import List Bool PeanoNat NArith Lia.
From Verif Require Import Base Ids Links Tree Iter ForestSpec TreeSpec ListFacts TreeProofs TreeApi ForestFacts IterSpec IterProofs
  PruneFacts Data Attrs Slab SlabProofs NodeApi Doc AttrFacts LinkProofs DocSpec RemoveProofs History InvProofs
  HistoryProofs ApiProofs DropSpec DropProofs.
Import ListNotations.

(* ---- lists *)
Lemma in_without S l x : In x (without S l) <-> In x l /\ ~ In x S.
Proof. unfold without. rewrite filter_In, negb_true_iff. rewrite mem_not_In. easy. Qed.
Lemma without_app S l k : without S (l ++ k) = without S l ++ without S k.
Proof. apply filter_app. Qed.

Lemma after_without S a b l : ~ In a S -> ~ In b S -> comes_after a b l -> comes_after a b (without S l).
Proof.
  intros Ha Hb (l1 & l2 & l3 & ->). exists (without S l1), (without S l2), (without S l3).
  rewrite without_app. unfold without at 2. cbn [filter]. rewrite (proj2 (mem_not_In a S) Ha). cbn [negb].
  change (filter (fun x => negb (mem x S)) (l2 ++ b :: l3)) with (without S (l2 ++ b :: l3)).
  rewrite without_app. unfold without at 3. cbn [filter]. rewrite (proj2 (mem_not_In b S) Hb). cbn [negb]. reflexivity.
Qed.
Lemma without_split S l b k1 k2 : without S l = k1 ++ b :: k2 ->
  exists l1 l2, l = l1 ++ b :: l2 /\ without S l1 = k1 /\ without S l2 = k2.
Proof.
  revert k1. induction l as [|x l IH]; intros k1 E; [now destruct k1|].
  cbn in E. destruct (mem x S) eqn:Em; cbn [negb] in E.
  - destruct (IH k1 E) as (l1 & l2 & -> & H1 & H2). exists (x :: l1), l2. split; [easy|]. split; [|easy].
    unfold without. cbn. rewrite Em. exact H1.
  - destruct k1 as [|y k1]; injection E as -> E.
    + exists [], l. easy.
    + destruct (IH k1 E) as (l1 & l2 & -> & H1 & H2). exists (y :: l1), l2. split; [easy|]. split; [|easy].
      unfold without. cbn. rewrite Em. cbn [negb]. f_equal. exact H1.
Qed.
Lemma without_after S a b l : comes_after a b (without S l) -> comes_after a b l.
Proof.
  intros (k1 & k2 & k3 & E). destruct (without_split _ _ _ _ _ E) as (l1 & l2 & -> & _ & E2).
  destruct (without_split _ _ _ _ _ E2) as (m1 & m2 & -> & _). now exists l1, m1, m2.
Qed.
Lemma after_rev a b l : comes_after a b (rev l) <-> comes_after b a l.
Proof.
  assert (G : forall a b l, comes_after a b l -> comes_after b a (rev l)).
  { intros x y l0 (l1 & l2 & l3 & ->). exists (rev l3), (rev l2), (rev l1).
    rewrite rev_app_distr. cbn. rewrite rev_app_distr. cbn. now rewrite <- !app_assoc. }
  split; intros H; apply G in H; [now rewrite rev_involutive in H|easy].
Qed.
Lemma succ_none_after n l : NoDup l -> In n l -> (succ_in n l = None <-> forall x, ~ comes_after n x l).
Proof.
  intros Hnd Hin. apply in_split in Hin. destruct Hin as (l1 & l2 & ->). rewrite (succ_in_at n l1 l2 Hnd).
  destruct l2 as [|x l2]; cbn.
  - split; [|easy]. intros _ x (k1 & k2 & k3 & E).
    assert (E2 : k1 ++ n :: (k2 ++ x :: k3) = l1 ++ n :: []) by easy. symmetry in E2.
    destruct (split_unique _ _ _ _ _ Hnd E2) as (_ & E3). now destruct k2.
  - split; [easy|]. intros H. exfalso. apply (H x). now exists l1, [], l2.
Qed.
Lemma without_rev S l : without S (rev l) = rev (without S l).
Proof.
  induction l as [|x l IH]; [easy|]. cbn [rev]. rewrite without_app, IH. unfold without at 2 3. cbn [filter].
  destruct (negb (mem x S)); cbn; [easy|]. now rewrite app_nil_r.
Qed.
Lemma NoDup_without S l : NoDup l -> NoDup (without S l).
Proof. apply NoDup_filter. Qed.

(* ---- the loop *)
Definition stuck (F : forest) (n : nid) : Prop :=
  parent_of F n = Some n /\ (succ_in n (siblings_of F n) = None \/ pred_in n (siblings_of F n) = None).

Lemma stuck_adjoining F n : wf_forest F -> existsb (fun x => mem x [n]) (adjoining F n) = true <-> stuck F n.
Proof.
  intros W. rewrite existsb_exists. unfold stuck, adjoining.
  pose proof (succ_in_neq n (siblings_of F n)) as Hs. pose proof (pred_in_neq n (siblings_of F n)) as Hp.
  pose proof (wf_nodup F W n) as Hnd.
  split.
  - intros (x & Hx & Hm). apply mem_In in Hm. destruct Hm as [<-|[]]. apply in_app_iff in Hx.
    destruct (succ_in n (siblings_of F n)) as [a|] eqn:Ea, (pred_in n (siblings_of F n)) as [b|] eqn:Eb,
      (parent_of F n) as [p|] eqn:Ep; cbn in Hx;
      try (specialize (Hs a Hnd eq_refl)); try (specialize (Hp b Hnd eq_refl));
      intuition congruence.
  - intros (Hpar & H). exists n. split; [|apply mem_In; now left]. rewrite Hpar. apply in_app_iff.
    destruct H as [-> | ->]; [left|right]; now left.
Qed.

Lemma drop_loop_exact : forall l D F, Rep (lk D) F ->
  (drop_loop l D = Panic PBorrow /\ exists l1 n l2, l = l1 ++ n :: l2 /\ stuck (detach_all l1 F) n) \/
  (exists D', drop_loop l D = Ok D' /\ (forall l1 n l2, l = l1 ++ n :: l2 -> ~ stuck (detach_all l1 F) n) /\
    Rep (lk D') (detach_all l F) /\ store D' = store D /\ droot D' = droot D /\ fresh D' = fresh D /\
    (forall x, storage_key D' x = storage_key D x) /\
    (forall x, attributes D' x = if mem x l then [] else attributes D x) /\
    (forall x, linked_nodes D' x = if mem x l then [] else linked_nodes D x)).
Proof.
  induction l as [|n l IH]; intros D F R.
  - right. exists D. split; [easy|]. split; [now intros [|? ?] ? ?|]. split; [exact R|]. repeat (split; [easy|]). split; easy.
  - cbn [drop_loop]. set (D1 := modify n (set_linked []) (modify n (set_attrs (attrs_clear (attributes D n))) D)).
    pose proof (detach_refines [] n (lk D1) F R) as HD. change (mem n []) with false in HD. cbn [orb] in HD.
    pose proof (stuck_adjoining F n (r_wf _ _ R)) as HS.
    destruct (existsb (fun x => mem x [n]) (adjoining F n)) eqn:Ex.
    + left. rewrite HD. split; [easy|]. exists [], n, l. split; [easy|]. now apply HS.
    + destruct HD as (L & E & RL & _). rewrite E. cbn [bind].
      assert (A1 : forall x, attributes D1 x = if Nat.eqb x n then [] else attributes D x).
      { intros x. unfold D1, modify, attributes. cbn. rewrite !upd_eq. destruct (Nat.eqb_spec x n) as [->|]; [now rewrite ?Nat.eqb_refl|easy]. }
      assert (L1 : forall x, linked_nodes D1 x = if Nat.eqb x n then [] else linked_nodes D x).
      { intros x. unfold D1, modify, linked_nodes. cbn. rewrite !upd_eq. destruct (Nat.eqb_spec x n) as [->|]; easy. }
      assert (K1 : forall x, storage_key D1 x = storage_key D x).
      { intros x. unfold D1, modify, storage_key. cbn. rewrite !upd_eq. destruct (Nat.eqb_spec x n) as [->|]; [now rewrite ?Nat.eqb_refl|easy]. }
      destruct (IH (with_lk L D1) (f_detach n F) RL) as [(E' & l1 & m & l2 & -> & Hst)|(D' & E' & Hno & R' & Hs & Hr & Hf & Hk & Ha & Hl)].
      * left. split; [exact E'|]. exists (n :: l1), m, l2. split; [easy|exact Hst].
      * right. exists D'. split; [exact E'|]. split.
        { intros [|y l1] m l2 El.
          - injection El as <- <-. intros Hst. change (stuck F n) in Hst. apply HS in Hst. discriminate.
          - injection El as <- El. exact (Hno l1 m l2 El). }
        split; [easy|]. split; [easy|]. split; [easy|]. split; [easy|].
        change (attributes (with_lk L D1)) with (attributes D1) in Ha.
        change (linked_nodes (with_lk L D1)) with (linked_nodes D1) in Hl.
        change (storage_key (with_lk L D1)) with (storage_key D1) in Hk.
        split; [intros x; now rewrite Hk|]. split.
        -- intros x. rewrite Ha, A1, mem_cons. destruct (mem x l), (Nat.eqb x n); easy.
        -- intros x. rewrite Hl, L1, mem_cons. destruct (mem x l), (Nat.eqb x n); easy.
Qed.

(* ---- the storage order *)
Lemma occupied_split : forall E k n, nth_error E k = Some (Occupied n) ->
  occupied E = occupied (firstn k E) ++ n :: occupied (skipn (S k) E).
Proof.
  induction E as [|e E IH]; intros [|k] n H; cbn in H; try easy.
  - injection H as ->. reflexivity.
  - cbn [firstn skipn occupied]. destruct e as [m|nx]; rewrite (IH k n H); reflexivity.
Qed.
Lemma occupied_firstn : forall E k x, In x (occupied (firstn k E)) <-> exists j, j < k /\ nth_error E j = Some (Occupied x).
Proof.
  induction E as [|e E IH]; intros k x.
  - rewrite firstn_nil. cbn. split; [easy|]. intros ([|j] & _ & H); easy.
  - destruct k as [|k]; cbn [firstn].
    + cbn. split; [easy|]. intros (j & Hj & _). lia.
    + assert (Ht : In x (occupied (firstn k E)) <-> exists j, Datatypes.S j < Datatypes.S k /\ nth_error (e :: E) (Datatypes.S j) = Some (Occupied x)).
      { rewrite IH. split; intros (j & Hj & H); exists j; (split; [lia|easy]). }
      destruct e as [m|nx]; cbn [occupied In]; rewrite Ht; split.
      * intros [->|(j & Hj & H)]; [exists 0; split; [lia|easy]|exists (Datatypes.S j); easy].
      * intros ([|j] & Hj & H); [left; now injection H|right; now exists j].
      * intros (j & Hj & H). exists (Datatypes.S j); easy.
      * intros ([|j] & Hj & H); [easy|now exists j].
Qed.
Lemma slab_get_entry s k n : slab_get s k = Some n <-> nth_error (s_entries s) k = Some (Occupied n).
Proof. unfold slab_get. destruct (nth_error (s_entries s) k) as [[m|nx]|]; split; congruence. Qed.

Lemma occupied_nodup : forall E, (forall j k n, nth_error E j = Some (Occupied n) -> nth_error E k = Some (Occupied n) -> j = k) ->
  NoDup (occupied E).
Proof.
  induction E as [|e E IH]; intros H; [constructor|].
  assert (HE : NoDup (occupied E)).
  { apply IH. intros j k n H1 H2. assert (Hs : Datatypes.S j = Datatypes.S k) by (apply (H _ _ n); easy). lia. }
  destruct e as [m|nx]; cbn; [|easy]. constructor; [|easy]. intros Hin.
  assert (Hj : exists j, nth_error E j = Some (Occupied m)).
  { clear -Hin. induction E as [|e E IH]; [easy|]. destruct e as [y|nx]; cbn in Hin.
    - destruct Hin as [->|Hin]; [now exists 0|]. destruct (IH Hin) as (j & Hj). now exists (Datatypes.S j).
    - destruct (IH Hin) as (j & Hj). now exists (Datatypes.S j). }
  destruct Hj as (j & Hj). now assert (0 = Datatypes.S j) by (apply (H _ _ m); easy).
Qed.
Lemma slab_iter_nodup s key : slab_ok s key -> NoDup (slab_iter s).
Proof.
  intros S. apply occupied_nodup. intros j k n H1 H2. apply slab_get_entry in H1. apply slab_get_entry in H2.
  apply (so_bwd _ _ S) in H1. apply (so_bwd _ _ S) in H2. congruence.
Qed.

Section Drop.
  Variables (D : dom) (F : forest).
  Hypothesis I : InvF D F.
  Let W : wf_forest F := r_wf _ _ (iv_rep D F I).
  Let l := slab_iter (store D).

  Lemma stored_iter n : In n l <-> is_detached D n = false.
  Proof.
    pose proof (iv_slab D F I) as S. unfold l. rewrite in_slab_iter. unfold is_detached. split.
    - intros (k & Hk). apply (so_bwd _ _ S) in Hk. now rewrite Hk.
    - destruct (storage_key D n) as [k|] eqn:Ek; [|easy]. intros _. exists k. now apply (so_fwd _ _ S).
  Qed.
  Lemma removed_iter n : ~ In n l <-> is_detached D n = true.
  Proof. rewrite stored_iter. destruct (is_detached D n); intuition congruence. Qed.
  Lemma removed_mem n : mem n l = negb (is_detached D n).
  Proof.
    destruct (is_detached D n) eqn:E; cbn; [apply mem_not_In, removed_iter; easy|apply mem_In, stored_iter; easy].
  Qed.

  Lemma iter_turn n k : storage_key D n = Some k ->
    exists l1 l2, l = l1 ++ n :: l2 /\ forall x, In x l1 <-> stored_before D k x.
  Proof.
    intros Ek. pose proof (iv_slab D F I) as S. pose proof (so_fwd _ _ S n k Ek) as Hg. apply slab_get_entry in Hg.
    exists (occupied (firstn k (s_entries (store D)))), (occupied (skipn (Datatypes.S k) (s_entries (store D)))).
    split; [now apply occupied_split|]. intros x. rewrite occupied_firstn. unfold stored_before. split.
    - intros (j & Hj & H). exists j. split; [|easy]. apply (so_bwd _ _ S). now apply slab_get_entry.
    - intros (j & Hk & Hj). exists j. split; [easy|]. apply slab_get_entry. now apply (so_fwd _ _ S).
  Qed.

  Lemma stuck_turn n l1 l2 : l = l1 ++ n :: l2 ->
    (stuck (detach_all l1 F) n <-> parent_of F n = Some n /\
       ((forall x, comes_after n x (siblings_of F n) -> In x l1) \/ (forall x, comes_after x n (siblings_of F n) -> In x l1))).
  Proof.
    intros El. pose proof (slab_iter_nodup (store D) _ (iv_slab D F I)) as Hnd. fold l in Hnd. rewrite El in Hnd.
    assert (Hn : ~ In n l1) by (intros H; apply NoDup_remove_2 in Hnd; apply Hnd, in_app_iff; now left).
    unfold stuck. destruct (detach_all_spec l1 F n) as (-> & -> & _). rewrite (proj2 (mem_not_In n l1) Hn).
    assert (G : forall k, NoDup k -> In n k ->
       (succ_in n (without l1 k) = None <-> forall x, comes_after n x k -> In x l1)).
    { intros k Hk Hin. rewrite succ_none_after; [|now apply NoDup_without|apply in_without; easy]. split.
      - intros H x Hx. destruct (in_dec Nat.eq_dec x l1) as [|Hx2]; [easy|]. exfalso. apply (H x). now apply after_without.
      - intros H x Hx. pose proof (H x (without_after _ _ _ _ Hx)) as Hx2.
        assert (Hi : In x (without l1 k)) by (destruct Hx as (a & b & c & ->); apply in_app_iff; right; right; apply in_app_iff; right; now left).
        apply in_without in Hi. tauto. }
    pose proof (wf_nodup F W n) as Hs. pose proof (wf_self F W n) as Hi.
    unfold pred_in. rewrite <- without_rev.
    rewrite (G _ Hs Hi), (G (rev (siblings_of F n)) (NoDup_rev Hs)); [|now apply in_rev; rewrite rev_involutive].
    split; intros (H1 & H2); (split; [exact H1|]); (destruct H2 as [H2|H2]; [now left|right; intros x Hx; apply H2; now apply after_rev]).
  Qed.

  Theorem drop_returns : (exists D', drop_document D = Ok D') <-> forall n, ~ drop_blocked D F n.
  Proof.
    unfold drop_document. fold l. destruct (drop_loop_exact l D F (iv_rep D F I)) as [(E & l1 & n & l2 & El & Hst)|(D' & E & Hno & _)].
    - rewrite E. split; [intros (D' & H); discriminate|]. intros H. exfalso.
      apply (stuck_turn n l1 l2 El) in Hst. destruct Hst as (Hp & Hst).
      assert (Hin : In n l) by (rewrite El; apply in_app_iff; right; now left).
      apply stored_iter in Hin. unfold is_detached in Hin. destruct (storage_key D n) as [k|] eqn:Ek; [|easy].
      destruct (iter_turn n k Ek) as (k1 & k2 & El2 & Hk).
      pose proof (slab_iter_nodup (store D) _ (iv_slab D F I)) as Hnd. fold l in Hnd. rewrite El in Hnd, El2.
      destruct (split_unique _ _ _ _ _ Hnd El2) as (-> & ->).
      apply (H n). split; [easy|]. exists k. split; [easy|].
      destruct Hst as [Hst|Hst]; [left|right]; intros x Hx; now apply Hk, Hst.
    - rewrite E. split; [|eauto]. intros _ n (Hp & k & Ek & H). destruct (iter_turn n k Ek) as (l1 & l2 & El & Hk).
      apply (Hno l1 n l2 El). apply (stuck_turn n l1 l2 El). split; [easy|].
      destruct H as [H|H]; [left|right]; intros x Hx; now apply Hk, H.
  Qed.
  Theorem drop_panics : (exists n, drop_blocked D F n) -> drop_document D = Panic PBorrow.
  Proof.
    intros (n & Hn). unfold drop_document. fold l.
    destruct (drop_loop_exact l D F (iv_rep D F I)) as [(E & _)|(D' & E & _)]; [easy|].
    exfalso. revert n Hn. apply drop_returns. now exists D'.
  Qed.

  Theorem drop_effect D' : drop_document D = Ok D' ->
    exists F', Rep (lk D') F' /\
      (forall n, is_detached D n = false -> attributes D' n = [] /\ linked_nodes D' n = [] /\ parent_of F' n = None /\ siblings_of F' n = [n]) /\
      (forall n, is_detached D n = true -> attributes D' n = attributes D n /\ linked_nodes D' n = linked_nodes D n /\
         parent_of F' n = parent_of F n /\ siblings_of F' n = filter (is_detached D) (siblings_of F n)) /\
      (forall n, children_of F' n = filter (is_detached D) (children_of F n)).
  Proof.
    intros E. unfold drop_document in E. fold l in E.
    destruct (drop_loop_exact l D F (iv_rep D F I)) as [(E2 & _)|(D2 & E2 & _ & R & _ & _ & _ & _ & Ha & Hl)]; [congruence|].
    assert (D2 = D') by congruence. subst D2.
    assert (Hw : forall k, without l k = filter (is_detached D) k).
    { intros k. unfold without. apply filter_ext. intros x. rewrite removed_mem. apply negb_involutive. }
    exists (detach_all l F). split; [easy|].
    split; [|split]; intros n; destruct (detach_all_spec l F n) as (H1 & H2 & H3); rewrite ?Ha, ?Hl, ?H1, ?H2, ?H3, ?removed_mem, ?Hw.
    - intros ->. easy.
    - intros ->. easy.
    - easy.
  Qed.

  Lemma ka_trans E a b c : keeps_alive E a b -> keeps_alive E b c -> keeps_alive E a c.
  Proof. intros H1 H2. induction H1; eapply ka_more; eauto. Qed.
  Lemma rc_trans a b c : remains_chain D F a b -> remains_chain D F b c -> remains_chain D F a c.
  Proof. intros H1 H2. induction H1; eapply rc_more; eauto. Qed.

  Section Chains.
    Variables (D' : dom) (F' : forest).
    Hypothesis R : Rep (lk D') F'.
    Let W' : wf_forest F' := r_wf _ _ R.

    Lemma alive_after_aux : forall l2 a l1 b l3, siblings_of F' a = l1 ++ a :: l2 ++ b :: l3 -> keeps_alive D' a b.
    Proof.
      induction l2 as [|c l2 IH]; intros a l1 b l3 E.
      - apply ka_one. right. left. unfold next_sibling. rewrite (r_next _ _ R). pose proof (wf_nodup F' W' a) as Hnd.
        rewrite E in Hnd |- *. exact (split_succ _ _ _ _ Hnd).
      - assert (Hc : siblings_of F' c = siblings_of F' a).
        { apply (wf_share F' W'). rewrite E. apply in_app_iff. right. right. now left. }
        apply (ka_more _ a c b).
        + right. left. unfold next_sibling. rewrite (r_next _ _ R). pose proof (wf_nodup F' W' a) as Hnd.
          rewrite E in Hnd |- *. exact (split_succ _ _ _ _ Hnd).
        + apply (IH c (l1 ++ [a]) b l3). rewrite Hc, E, <- app_assoc. reflexivity.
    Qed.
    Lemma alive_after a b : comes_after a b (siblings_of F' a) -> keeps_alive D' a b.
    Proof. intros (l1 & l2 & l3 & E). now apply (alive_after_aux l2 a l1 b l3). Qed.
    Lemma alive_child a b : parent_of F' b = Some a -> keeps_alive D' a b.
    Proof.
      intros Hp. pose proof (wf_parent F' W' b a Hp) as Hs.
      assert (Hin : In b (children_of F' a)) by (rewrite <- Hs; apply W').
      destruct (children_of F' a) as [|c k] eqn:Ec; [easy|].
      assert (H1 : keeps_alive D' a c).
      { apply ka_one. left. unfold first_child. now rewrite (r_first _ _ R), Ec. }
      destruct Hin as [->|Hin]; [easy|]. apply (ka_trans _ a c b H1). apply alive_after.
      assert (Hcp : parent_of F' c = Some a) by (apply (wf_child F' W'); rewrite Ec; now left).
      rewrite (wf_parent F' W' c a Hcp), Ec. apply in_split in Hin. destruct Hin as (k1 & k2 & ->). now exists [], k1, k2.
    Qed.
  End Chains.

  Theorem drop_alive D' : drop_document D = Ok D' -> forall a b, keeps_alive D' a b <-> remains_chain D F a b.
  Proof.
    intros E. destruct (drop_effect D' E) as (F' & R & Hst & Hrm & Hch). pose proof (r_wf _ _ R) as W'.
    assert (Hs : forall a b, strong D' a b -> remains D F a b).
    { intros a b H. unfold strong in H. destruct H as [H|[H|H]].
      - unfold first_child in H. rewrite (r_first _ _ R), Hch in H.
        assert (Hin : In b (filter (is_detached D) (children_of F a))).
        { destruct (filter (is_detached D) (children_of F a)); [easy|]. injection H as ->. now left. }
        apply filter_In in Hin. destruct Hin as (Hin & Hd). apply rm_child; [easy|]. now apply (wf_child F W).
      - unfold next_sibling in H. rewrite (r_next _ _ R) in H. destruct (is_detached D a) eqn:Ed.
        + destruct (Hrm a Ed) as (_ & _ & _ & Hsib). rewrite Hsib in H.
          pose proof (succ_in_In _ _ _ H) as (_ & Hin). apply filter_In in Hin. destruct Hin as (Hin & Hd).
          apply rm_next; [easy|easy|]. apply succ_in_split in H. destruct H as (l1 & l2 & H).
          apply (without_after l). exists l1, [], l2.
          change (l1 ++ a :: [] ++ b :: l2) with (l1 ++ a :: b :: l2).
          rewrite <- H. unfold without. apply filter_ext. intros x. rewrite removed_mem. apply negb_involutive.
        + destruct (Hst a Ed) as (_ & _ & _ & Hsib). rewrite Hsib in H. cbn in H. now rewrite Nat.eqb_refl in H.
      - destruct (is_detached D a) eqn:Ed.
        + destruct (Hrm a Ed) as (Ha & Hl & _). rewrite Ha, Hl in H. destruct H as [(x & Hx & Ht)|H].
          * now apply (rm_link D F a b x).
          * now apply rm_user.
        + destruct (Hst a Ed) as (Ha & Hl & _). rewrite Ha, Hl in H. destruct H as [(x & [] & _)|[]]. }
    assert (Hr : forall a b, remains D F a b -> keeps_alive D' a b).
    { intros a b H. destruct H as [a b x Hd Hx Ht|a b Hd Hx|a b Hd Hp|a b Ha Hb Hab].
      - apply ka_one. right. right. left. exists x. split; [|easy]. now rewrite (proj1 (Hrm a Hd)).
      - apply ka_one. right. right. right. now rewrite (proj1 (proj2 (Hrm a Hd))).
      - apply (alive_child D' F' R). now rewrite (proj1 (proj2 (proj2 (Hrm b Hd)))).
      - apply (alive_after D' F' R). rewrite (proj2 (proj2 (proj2 (Hrm a Ha)))).
        apply removed_iter in Ha. apply removed_iter in Hb.
        pose proof (after_without l a b _ Ha Hb Hab) as Hw.
        replace (filter (is_detached D) (siblings_of F a)) with (without l (siblings_of F a)); [easy|].
        unfold without. apply filter_ext. intros x. rewrite removed_mem. apply negb_involutive. }
    intros a b. split; intros H.
    - induction H as [a b H|a b c H _ IH]; [apply rc_one|eapply rc_more]; eauto.
    - induction H as [a b H|a b c H _ IH]; [now apply Hr|]. eapply ka_trans; [apply Hr; exact H|exact IH].
  Qed.
End Drop.

Theorem drop_returns_api D F : reachable D -> shows (lk D) F ->
  ((exists D', drop_document D = Ok D') <-> forall n, ~ drop_blocked D F n) /\
  ((exists n, drop_blocked D F n) -> drop_document D = Panic PBorrow).
Proof.
  intros H S. pose proof (shows_inv D F H S) as I. split; [exact (drop_returns D F I)|exact (drop_panics D F I)].
Qed.
Theorem drop_effect_api D F D' : reachable D -> shows (lk D) F -> drop_document D = Ok D' ->
  exists F', shows (lk D') F' /\
    (forall n, is_detached D n = false -> attributes D' n = [] /\ linked_nodes D' n = [] /\ parent_of F' n = None /\ siblings_of F' n = [n]) /\
    (forall n, is_detached D n = true -> attributes D' n = attributes D n /\ linked_nodes D' n = linked_nodes D n /\
       parent_of F' n = parent_of F n /\ siblings_of F' n = filter (is_detached D) (siblings_of F n)) /\
    (forall n, children_of F' n = filter (is_detached D) (children_of F n)).
Proof.
  intros H S E. pose proof (shows_inv D F H S) as I. destruct (drop_effect D F I D' E) as (F' & R & H1).
  exists F'. split; [now apply shows_Rep|exact H1].
Qed.
Theorem drop_alive_api D F D' : reachable D -> shows (lk D) F -> drop_document D = Ok D' ->
  forall a b, keeps_alive D' a b <-> remains_chain D F a b.
Proof. intros H S E. exact (drop_alive D F (shows_inv D F H S) D' E). Qed.
