(* Every call that returns keeps the invariant. *)
From Coq Require Import List Bool PeanoNat NArith Lia.
From Verif Require Import Base Ids Links Tree Iter ForestSpec ListFacts TreeProofs ForestFacts IterSpec IterProofs
  PruneFacts Data Attrs Slab SlabProofs NodeApi Doc AttrFacts LinkProofs RemoveProofs History InvProofs.
Import ListNotations.

Lemma bind_ok {A B} (m : res A) (k : A -> res B) y : bind m k = Ok y -> exists x, m = Ok x /\ k x = Ok y.
Proof. destruct m; cbn; try easy. intros H. now exists a. Qed.

Ltac ok_bind H x E := apply bind_ok in H; destruct H as (x & E & H).

(* ---- tree operations *)
Lemma detach_inv D F n L' : InvF D F -> detach [] n (lk D) = Ok L' -> InvF (with_lk L' D) (f_detach n F).
Proof.
  intros I H. pose proof (detach_refines [] n (lk D) F (iv_rep D F I)) as Hr. rewrite H in Hr.
  destruct (mem n [] || _); [easy|]. destruct Hr as (L2 & [= <-] & R & _).
  apply (InvF_links D F); [easy|easy|]. intros m Hm. apply iso_detach. now apply (iv_iso D F I).
Qed.

Lemma append_inv D F p n L' : InvF D F -> p < fresh D -> n < fresh D -> append [] p n (lk D) = Ok L' ->
  InvF (with_lk L' D) (f_append p n F).
Proof.
  intros I Hp Hn H. pose proof (append_refines [] p n (lk D) F (iv_rep D F I)) as Hr. rewrite H in Hr.
  destruct (Nat.eqb p n); [easy|]. destruct (append_conflict [] p n F); [easy|].
  destruct Hr as (L2 & [= <-] & R & _). apply (InvF_links D F); [easy|easy|].
  intros m Hm. apply iso_append; [apply I|now apply (iv_iso D F I)|lia|lia].
Qed.
Lemma prepend_inv D F p n L' : InvF D F -> p < fresh D -> n < fresh D -> prepend [] p n (lk D) = Ok L' ->
  InvF (with_lk L' D) (f_prepend p n F).
Proof.
  intros I Hp Hn H. pose proof (prepend_refines [] p n (lk D) F (iv_rep D F I)) as Hr. rewrite H in Hr.
  destruct (Nat.eqb p n); [easy|]. destruct (prepend_conflict [] p n F); [easy|].
  destruct Hr as (L2 & [= <-] & R & _). apply (InvF_links D F); [easy|easy|].
  intros m Hm. apply iso_prepend; [apply I|now apply (iv_iso D F I)|lia|lia].
Qed.
Lemma insert_after_inv D F a n L' : InvF D F -> a < fresh D -> n < fresh D ->
  insert_after [] a n (lk D) = Ok L' -> a <> n /\ InvF (with_lk L' D) (f_insert_after a n F).
Proof.
  intros I Hp Hn H. pose proof (insert_after_refines [] a n (lk D) F (iv_rep D F I)) as Hr. rewrite H in Hr.
  destruct (Nat.eqb_spec a n); [easy|]. destruct (insert_after_conflict [] a n F); [easy|].
  destruct Hr as (L2 & [= <-] & R & _). split; [easy|]. apply (InvF_links D F); [easy|easy|].
  intros m Hm. apply iso_insert_after; [apply I|now apply (iv_iso D F I)|lia|lia|easy].
Qed.
Lemma insert_before_inv D F a n L' : InvF D F -> a < fresh D -> n < fresh D ->
  insert_before [] a n (lk D) = Ok L' -> a <> n /\ InvF (with_lk L' D) (f_insert_before a n F).
Proof.
  intros I Hp Hn H. pose proof (insert_before_refines [] a n (lk D) F (iv_rep D F I)) as Hr. rewrite H in Hr.
  destruct (Nat.eqb_spec a n); [easy|]. destruct (insert_before_conflict [] a n F); [easy|].
  destruct Hr as (L2 & [= <-] & R & _). split; [easy|]. apply (InvF_links D F); [easy|easy|].
  intros m Hm. apply iso_insert_before; [apply I|now apply (iv_iso D F I)|lia|lia|easy].
Qed.

(* ---- creation *)
Lemma create_element_inv D F t r : InvF D F -> create_element t D = Ok r ->
  fst r = fresh D /\ InvF (snd r) F /\ lk (snd r) = lk D /\ fresh (snd r) = S (fresh D) /\ droot (snd r) = droot D /\
  exists k, forall m, dt (snd r) m = if Nat.eqb m (fresh D) then set_key (Some k) (new_data NElement t []) else dt D m.
Proof.
  intros I H. unfold create_element in H. destruct (empty_tag t) eqn:Et; [easy|].
  destruct (alloc_inv D F (new_data NElement t []) I) as (k & D' & E & I' & H1 & H2 & H3 & H4); try easy.
  rewrite E in H. injection H as <-. cbn. do 5 (split; [easy|]). exists k. exact H4.
Qed.
Lemma create_node_inv D F ty s r : InvF D F -> create_node ty s D = Ok r ->
  fst r = fresh D /\ InvF (snd r) F /\ lk (snd r) = lk D /\ fresh (snd r) = S (fresh D) /\ droot (snd r) = droot D /\
  exists k, forall m, dt (snd r) m = if Nat.eqb m (fresh D) then set_key (Some k) (new_data ty (QName []) s) else dt D m.
Proof.
  intros I H. unfold create_node in H.
  destruct (ntype_eqb ty NElement || ntype_eqb ty NRoot) eqn:Et; [easy|].
  apply orb_false_iff in Et. destruct Et as (E1 & E2).
  destruct (alloc_inv D F (new_data ty (QName []) s) I) as (k & D' & E & I' & H1 & H2 & H3 & H4); try easy.
  - cbn. intros ->. easy.
  - cbn. intros ->. easy.
  - rewrite E in H. injection H as <-. cbn. do 5 (split; [easy|]). exists k. exact H4.
Qed.

(* ---- remove_node *)
Lemma remove_all_inv u names : forall D F, InvF D F ->
  exists D', remove_all u names D = Ok D' /\ InvF D' F /\ frame D D'.
Proof.
  induction names as [|x names IH]; intros D F I; cbn.
  - exists D. split; [easy|]. split; [easy|apply frame_refl].
  - destruct (remove_attribute_inv D F u x I) as (D1 & -> & I1 & Hf1). cbn.
    destruct (IH D1 F I1) as (D2 & -> & I2 & Hf2). exists D2. split; [easy|]. split; [easy|].
    now apply (frame_trans D D1).
Qed.
Lemma unlink_users_inv n users : forall D F, InvF D F ->
  exists D', unlink_users n users D = Ok D' /\ InvF D' F /\ frame D D'.
Proof.
  induction users as [|x users IH]; intros D F I; cbn.
  - exists D. split; [easy|]. split; [easy|apply frame_refl].
  - destruct (remove_all_inv x (svg_link_names_to n (attributes D x)) D F I) as (D1 & -> & I1 & Hf1). cbn.
    destruct (IH D1 F I1) as (D2 & -> & I2 & Hf2). exists D2. split; [easy|]. split; [easy|].
    now apply (frame_trans D D1).
Qed.
Lemma remove_links_inv n D F : InvF D F -> exists D', remove_links n D = Ok D' /\ InvF D' F /\ frame D D'.
Proof.
  intros I. unfold remove_links.
  destruct (remove_all_inv n (svg_link_names (attributes D n)) D F I) as (D1 & -> & I1 & Hf1). cbn.
  destruct (unlink_users_inv n (linked_nodes D1 n) D1 F I1) as (D2 & -> & I2 & Hf2).
  exists D2. split; [easy|]. split; [easy|]. now apply (frame_trans D D1).
Qed.

Lemma InvF_key D F n s' : InvF D F ->
  slab_ok s' (fun m => if Nat.eqb m n then None else storage_key D m) ->
  InvF (with_store s' (modify n (set_key None) D)) F.
Proof.
  intros I Hok.
  assert (Hd : forall m, dt (with_store s' (modify n (set_key None) D)) m =
    if Nat.eqb m n then set_key None (dt D n) else dt D m) by (intros m; cbn; apply upd_eq).
  set (D' := with_store _ _) in *.
  assert (Hty : forall m, node_type D' m = node_type D m)
    by (intros m; unfold node_type; rewrite Hd; destruct (Nat.eqb_spec m n) as [->|]; easy).
  assert (Htg : forall m, tag_name D' m = tag_name D m)
    by (intros m; unfold tag_name; rewrite Hd; destruct (Nat.eqb_spec m n) as [->|]; easy).
  assert (Hid : forall m, id_of D' m = id_of D m)
    by (intros m; unfold id_of; rewrite Hd; destruct (Nat.eqb_spec m n) as [->|]; easy).
  assert (Hat : forall m, attributes D' m = attributes D m)
    by (intros m; unfold attributes; rewrite Hd; destruct (Nat.eqb_spec m n) as [->|]; easy).
  assert (Hli : forall m, linked_nodes D' m = linked_nodes D m)
    by (intros m; unfold linked_nodes; rewrite Hd; destruct (Nat.eqb_spec m n) as [->|]; easy).
  split.
  - apply I.
  - apply (LInv_ext D); [apply I|easy|easy].
  - eapply slab_ok_ext; [|exact Hok]. intros m. unfold storage_key at 1. rewrite Hd. now destruct (Nat.eqb m n).
  - apply I.
  - intros m Hm. rewrite Hd. destruct (Nat.eqb_spec m n) as [->|]; [|now apply (iv_blank D F I)].
    now rewrite (iv_blank D F I n Hm).
  - apply I.
  - intros m Hm. rewrite Hty. now apply (iv_root D F I).
  - intros m. unfold is_element. rewrite Hty, Htg. apply (iv_tag D F I).
  - intros m. unfold is_element. rewrite Hty, Htg, Hat, Hid. apply (iv_plain D F I).
  - intros m a. rewrite Hat. apply (iv_shape D F I).
Qed.

Lemma remove_finish_inv A n D D' : Inv A D -> remove_finish n D = Ok D' ->
  Inv A D' /\ fresh D' = fresh D /\ droot D' = droot D.
Proof.
  intros (F & I & HA) H. unfold remove_finish in H. ok_bind H L' E.
  pose proof (detach_inv D F n L' I E) as I1. set (D1 := with_lk L' D) in *.
  assert (HA1 : A -> acyclic (f_detach n F)) by (intros a; apply acyclic_detach; auto).
  destruct (storage_key D1 n) as [k|] eqn:Ek.
  - destruct (slab_remove_spec (store D1) (storage_key D1) n k (iv_slab _ _ I1) Ek) as (s' & Hr & Hok & _).
    change (store (modify n (set_key None) D1)) with (store D1) in H. rewrite Hr in H.
    injection H as <-. split; [|easy]. exists (f_detach n F). split; [|easy]. now apply InvF_key.
  - injection H as <-. split; [|easy]. exists (f_detach n F). split; [|easy].
    change (InvF (with_store (store D1) (modify n (set_key None) D1)) (f_detach n F)).
    apply InvF_key; [easy|]. apply (slab_ok_ext _ (storage_key D1)); [|apply I1].
    intros m. destruct (Nat.eqb_spec m n) as [Hm|]; congruence.
Qed.

Lemma for_children_inv {A} (getL : A -> links) (P : A -> Prop) body :
  (forall c s s', P s -> body c s = Ok s' -> P s') ->
  forall fuel it s s', P s -> for_children getL fuel body it s = Ok s' -> P s'.
Proof.
  intros Hb. induction fuel as [|fuel IH]; intros it s s' Hp H; [easy|]. cbn in H.
  destruct (children_next (getL s) it) as [[c|] it'].
  - ok_bind H s1 E. apply (IH it' s1); [|easy]. eapply Hb; eauto.
  - now injection H as <-.
Qed.

Definition same_size (D D' : dom) : Prop := fresh D' = fresh D /\ droot D' = droot D.

Lemma remove_rec_inv A fuel : forall n D D', Inv A D -> remove_rec fuel n D = Ok D' -> Inv A D' /\ same_size D D'.
Proof.
  induction fuel as [|fuel IH]; intros n D D' (F & I & HA) H; [easy|]. cbn in H.
  destruct (remove_links_inv n D F I) as (D1 & E1 & I1 & Hf1). rewrite E1 in H. cbn in H.
  ok_bind H D2 E2.
  assert (H2 : Inv A D2 /\ same_size D D2).
  { eapply (for_children_inv lk (fun X => Inv A X /\ same_size D X)); [|split|exact E2].
    - intros c s s' (Hi & Hs1 & Hs2) Hb. destruct (IH c s s' Hi Hb) as (Hi' & Hs1' & Hs2').
      split; [easy|]. unfold same_size. split; congruence.
    - now exists F.
    - split; apply Hf1. }
  destruct H2 as (I2 & Hs1 & Hs2). destruct (remove_finish_inv A n D2 D' I2 H) as (I3 & Hr1 & Hr2).
  split; [easy|]. unfold same_size. split; congruence.
Qed.

Lemma drain_loop_inv A f fuel : forall n s s', Inv A (fst s) -> drain_loop fuel f n s = Ok s' ->
  Inv A (fst s') /\ same_size (fst s) (fst s').
Proof.
  induction fuel as [|fuel IH]; intros n [D k] s' I H; [easy|]. cbn [drain_loop fst snd] in H, I.
  destruct n as [n|]; [|injection H as <-; easy].
  destruct (f D n).
  - ok_bind H D1 E. unfold remove_node in E. destruct (remove_rec_inv _ _ _ _ _ I E) as (I1 & S1 & S2).
    destruct (IH _ _ _ (I1 : Inv A (fst (D1, S k))) H) as (I2 & S3 & S4). split; [easy|]. cbn in *.
    unfold same_size. cbn. split; congruence.
  - ok_bind H s1 E.
    assert (H1 : Inv A (fst s1) /\ same_size D (fst s1)).
    { destruct (has_children (lk D) n).
      - apply (IH _ (D, k) _ I E).
      - injection E as <-. easy. }
    destruct H1 as (I1 & S1 & S2). destruct (IH _ _ _ I1 H) as (I2 & S3 & S4). split; [easy|].
    unfold same_size. cbn. split; congruence.
Qed.

(* ---- copying *)
Lemma copy_attrs_inv src elem l : forall D D' F, InvF D F -> copy_attrs src elem l D = Ok D' ->
  InvF D' F /\ frame D D'.
Proof.
  induction l as [|a l IH]; intros D D' F I H; cbn in H.
  - injection H as <-. split; [easy|apply frame_refl].
  - ok_bind H D1 E. assert (H1 : InvF D1 F /\ frame D D1).
    { destruct (link_target (a_value a)); [destruct (Nat.eqb n src && has_id D n); [easy|]|];
        apply (set_attribute_inv D F elem a D1 I E). }
    destruct H1 as (I1 & Hf1). destruct (IH D1 D' F I1 H) as (I2 & Hf2). split; [easy|].
    now apply (frame_trans D D1).
Qed.

Lemma copy_node_inv n D F r : InvF D F -> copy_node n D = Ok r ->
  fst r = fresh D /\ InvF (snd r) F /\ lk (snd r) = lk D /\ fresh (snd r) = S (fresh D) /\ droot (snd r) = droot D.
Proof.
  intros I H. unfold copy_node in H. destruct (node_type D n).
  1,3,4: (apply (create_node_inv D F) in H; [|easy]; tauto).
  ok_bind H r1 E1. destruct (create_element_inv D F _ r1 I E1) as (Hn & I1 & Hl & Hf & Hr & _).
  ok_bind H D2 E2. injection H as <-. cbn [fst snd].
  destruct (copy_attrs_inv _ _ _ _ _ _ I1 E2) as (I2 & Hf2). destruct Hf2.
  split; [easy|]. split; [easy|]. split; [congruence|]. split; congruence.
Qed.

Lemma iso_anc F n p : wf_forest F -> isolated F n -> anc_or_self F n p -> p = n.
Proof.
  intros W (_ & _ & Hc) H. induction H as [|a m q Hp H IH]; [easy|].
  rewrite (IH Hc) in Hp. pose proof (wf_parent F W m a Hp) as E.
  pose proof (wf_self F W m) as Hm. rewrite E, Hc in Hm. easy.
Qed.

Lemma deep_copy_inv A fuel : forall p n D D', Inv A D -> p < fresh D -> make_deep_copy fuel p n D = Ok D' ->
  Inv A D' /\ fresh D <= fresh D' /\ droot D' = droot D.
Proof.
  induction fuel as [|fuel IH]; intros p n D D' I Hp H; [easy|]. cbn [make_deep_copy] in H.
  eapply (for_children_inv lk (fun X => Inv A X /\ fresh D <= fresh X /\ droot X = droot D)); [|split;[exact I|split;[apply le_n|reflexivity]]|exact H].
  intros c s s' ((F & Is & HA) & Hle & Hdr) Hb. cbv beta in Hb.
  ok_bind Hb r E. destruct (copy_node_inv c s F r Is E) as (Hn & I1 & Hl & Hf & Hr).
  ok_bind Hb L' E2.
  assert (I2 : InvF (with_lk L' (snd r)) (f_append p (fst r) F)).
  { apply append_inv; [easy|lia|lia|easy]. }
  assert (HA2 : A -> acyclic (f_append p (fst r) F)).
  { intros a. apply acyclic_append; [apply Is|auto|]. intros Hanc.
    apply iso_anc in Hanc; [|apply Is|apply (iv_iso s F Is); lia]. lia. }
  destruct (has_children _ c).
  - apply IH in Hb; [|now exists (f_append p (fst r) F)|cbn; lia].
    destruct Hb as (I3 & Hle3 & Hr3). cbn in *. split; [easy|]. split; [lia|congruence].
  - injection Hb as <-. split; [now exists (f_append p (fst r) F)|]. cbn. split; [lia|congruence].
Qed.

(* ---- text, id, tag *)
Lemma InvF_data D F n g : InvF D F -> n < fresh D ->
  (forall d, d_key (g d) = d_key d /\ d_type (g d) = d_type d /\ d_attrs (g d) = d_attrs d /\ d_linked (g d) = d_linked d) ->
  (is_element D n = true -> empty_tag (d_tag (g (dt D n))) = false) ->
  (is_element D n = false -> d_tag (g (dt D n)) = tag_name D n /\ d_id (g (dt D n)) = id_of D n) ->
  InvF (modify n g D) F.
Proof.
  intros I Hn Hg Ht Hp.
  assert (Hd : forall m, dt (modify n g D) m = if Nat.eqb m n then g (dt D n) else dt D m)
    by (intros m; cbn; apply upd_eq).
  destruct (Hg (dt D n)) as (G1 & G2 & G3 & G4).
  set (D' := modify n g D) in *.
  assert (Hty : forall m, node_type D' m = node_type D m)
    by (intros m; unfold node_type; rewrite Hd; destruct (Nat.eqb_spec m n) as [->|]; easy).
  assert (Hat : forall m, attributes D' m = attributes D m)
    by (intros m; unfold attributes; rewrite Hd; destruct (Nat.eqb_spec m n) as [->|]; easy).
  assert (Hli : forall m, linked_nodes D' m = linked_nodes D m)
    by (intros m; unfold linked_nodes; rewrite Hd; destruct (Nat.eqb_spec m n) as [->|]; easy).
  split.
  - apply I.
  - apply (LInv_ext D); [apply I|easy|easy].
  - apply (slab_ok_ext _ (storage_key D)); [|apply I]. intros m. unfold storage_key. rewrite Hd.
    destruct (Nat.eqb_spec m n) as [->|]; easy.
  - apply I.
  - intros m Hm. cbn in Hm. rewrite Hd. destruct (Nat.eqb_spec m n) as [->|]; [lia|]. now apply (iv_blank D F I).
  - apply I.
  - intros m Hm. rewrite Hty. now apply (iv_root D F I).
  - intros m. unfold is_element. rewrite Hty. unfold tag_name. rewrite Hd.
    destruct (Nat.eqb_spec m n) as [->|]; [apply Ht|apply (iv_tag D F I)].
  - intros m. unfold is_element. rewrite Hty, Hat. unfold tag_name, id_of. rewrite Hd.
    destruct (Nat.eqb_spec m n) as [->|]; [|apply (iv_plain D F I)].
    intros He. destruct (Hp He) as (-> & ->). now apply (iv_plain D F I).
  - intros m a. rewrite Hat. apply (iv_shape D F I).
Qed.

(* parent() chains of the heap and of the forest *)
Lemma above_anc L F a n : Rep L F -> above L a n <-> anc_or_self F a n.
Proof.
  intros R. split; induction 1 as [|a n p Hp H IH]; try constructor.
  - eapply aos_up; [|exact IH]. now rewrite <- (r_parent L F R).
  - eapply above_up; [|exact IH]. unfold parent. now rewrite (r_parent L F R).
Qed.

Theorem step_inv A o D D' : Inv A D -> legal o D -> (A -> no_cycle_made o D) -> step o D = Ok D' ->
  Inv A D' /\ fresh D <= fresh D' /\ droot D' = droot D.
Proof.
  intros I Hl Hc H. pose proof I as (F & IF & HA).
  destruct Hl as (Hn & Hp). unfold exists_node in Hn.
  assert (Hanc : forall a n, ~ above (lk D) a n -> ~ anc_or_self F a n).
  { intros a n Ha Hb. apply Ha. now apply (above_anc _ F), Hb; apply IF. }
  destruct o; cbn [step handles no_cycle_made] in *.
  - ok_bind H r E. injection H as <-. apply (create_element_inv D F) in E; [|easy].
    destruct E as (_ & I' & _ & -> & Hr & _). split; [now exists F|]. split; [lia|easy].
  - ok_bind H r E. injection H as <-. apply (create_node_inv D F) in E; [|easy].
    destruct E as (_ & I' & _ & -> & Hr & _). split; [now exists F|]. split; [lia|easy].
  - destruct (remove_rec_inv A _ _ _ _ I H) as (I' & -> & Hr). split; [easy|]. split; [lia|easy].
  - ok_bind H r E. injection H as <-. unfold drain in E.
    destruct (drain_loop_inv A f _ _ _ _ (I : Inv A (fst (D, 0))) E) as (I' & Hs & Hr). cbn in Hs, Hr.
    split; [easy|]. split; [lia|easy].
  - ok_bind H r E. injection H as <-. apply (copy_node_inv n D F) in E; [|easy].
    destruct E as (_ & I' & _ & -> & Hr). split; [now exists F|]. split; [lia|easy].
  - ok_bind H r E. injection H as <-. unfold copy_node_deep in E. ok_bind E r1 E1. ok_bind E D2 E2.
    injection E as <-. cbn [snd]. destruct (copy_node_inv n D F r1 IF E1) as (Hf & I1 & _ & Hs & Hr).
    apply (deep_copy_inv A) in E2; [|now exists F|lia].
    destruct E2 as (I2 & Hle & Hr2). split; [easy|]. split; [lia|congruence].
  - unfold on_links in H. ok_bind H L' E. injection H as <-. split; [|split; cbn; [lia|easy]].
    exists (f_detach n F). split; [now apply detach_inv|]. intros; now apply acyclic_detach, HA.
  - unfold on_links in H. ok_bind H L' E. injection H as <-. split; [|split; cbn; [lia|easy]].
    exists (f_append p n F). split; [apply append_inv; auto with datatypes|].
    intros; apply acyclic_append; [apply IF| |]; auto.
  - unfold on_links in H. ok_bind H L' E. injection H as <-. split; [|split; cbn; [lia|easy]].
    exists (f_prepend p n F). split; [apply prepend_inv; auto with datatypes|].
    intros; apply acyclic_prepend; [apply IF| |]; auto.
  - unfold on_links in H. ok_bind H L' E. injection H as <-. split; [|split; cbn; [lia|easy]].
    exists (f_insert_after a n F). split; [apply insert_after_inv; auto with datatypes|].
    intros; apply acyclic_insert_after; [apply IF| |]; auto.
  - unfold on_links in H. ok_bind H L' E. injection H as <-. split; [|split; cbn; [lia|easy]].
    exists (f_insert_before a n F). split; [apply insert_before_inv; auto with datatypes|].
    intros; apply acyclic_insert_before; [apply IF| |]; auto.
  - unfold set_text in H. destruct (is_element D n) eqn:E; [easy|]. injection H as <-.
    split; [|split; cbn; [lia|easy]]. exists F. split; [|easy]. apply InvF_data; auto with datatypes. congruence.
  - injection H as <-. split; [|split; cbn; [lia|easy]]. exists F. split; [|easy]. apply InvF_data; auto with datatypes.
    cbn. intros He. now apply (iv_tag D F IF).
  - unfold set_id in H. destruct (is_element D n) eqn:E; [|easy]. injection H as <-.
    split; [|split; cbn; [lia|easy]]. exists F. split; [|easy]. apply InvF_data; auto with datatypes; [|congruence].
    cbn. intros He. now apply (iv_tag D F IF).
  - unfold set_tag_name in H. destruct (is_element D n) eqn:E; [|easy]. cbn in H.
    destruct (empty_tag t) eqn:Et; [easy|]. injection H as <-.
    split; [|split; cbn; [lia|easy]]. exists F. split; [|easy]. apply InvF_data; auto with datatypes. congruence.
  - apply (set_attribute_inv D F) in H; [|easy]. destruct H as (I' & Hf). split; [now exists F|].
    destruct Hf. split; [lia|easy].
  - ok_bind H r E. injection H as <-. apply (set_checked_inv D F) in E; [|easy]. destruct E as (I' & Hf).
    split; [now exists F|]. destruct Hf. split; [lia|easy].
  - unfold set_attribute_if_none in H. destruct (negb _).
    + apply (set_attribute_inv D F) in H; [|easy]. destruct H as (I' & Hf). split; [now exists F|].
      destruct Hf. split; [lia|easy].
    + injection H as <-. split; [easy|]. split; [lia|easy].
  - destruct (remove_attribute_inv D F n name IF) as (D1 & E & I1 & Hf). rewrite E in H. injection H as <-.
    split; [now exists F|]. destruct Hf. split; [lia|easy].
  - injection H as <-. destruct Hp as (Hp1 & Hp2 & Hp3). split; [|split; [apply le_n|reflexivity]].
    exists F. split; [now apply edit_inv|easy].
Qed.

Theorem reachable_inv D : reachable D -> Inv False D.
Proof.
  induction 1 as [D H|D o D' H IH Hl Hs].
  - destruct new_document_inv as (D0 & E & I & _). rewrite E in H. injection H as <-. now exists empty_forest.
  - now apply (step_inv False o D D').
Qed.

Theorem tame_inv D : reachable_tame D -> Inv True D.
Proof.
  induction 1 as [D H|D o D' H IH Hl Hc Hs].
  - destruct new_document_inv as (D0 & E & I & _). rewrite E in H. injection H as <-. exists empty_forest.
    split; [easy|]. intros _. apply acyclic_empty.
  - now apply (step_inv True o D D').
Qed.

Lemma tame_reachable D : reachable_tame D -> reachable D.
Proof. induction 1; [now apply reach_new|]. eapply reach_step; eauto. Qed.

(* ---- the observable notion of acyclicity is the bounded rank of the forest *)
Lemma iso_no_parent D F n p : InvF D F -> parent_of F n = Some p -> n < fresh D /\ p < fresh D.
Proof.
  intros I Hp. split.
  - destruct (Nat.lt_ge_cases n (fresh D)) as [|H]; [easy|]. apply (iv_iso D F I) in H. destruct H. congruence.
  - destruct (Nat.lt_ge_cases p (fresh D)) as [|H]; [easy|]. apply (iv_iso D F I) in H. destruct H as (_ & _ & Hc).
    pose proof (r_wf _ _ (iv_rep D F I)) as W. pose proof (wf_parent F W n p Hp) as E.
    pose proof (wf_self F W n) as Hn. rewrite E, Hc in Hn. easy.
Qed.

Lemma anc_lt D F a p : InvF D F -> anc_or_self F a p -> p < fresh D -> a < fresh D.
Proof.
  intros I H. induction H as [|a n p Hp H IH]; [easy|]. intros _. apply IH. now apply (iso_no_parent D F n p).
Qed.

Fixpoint up_chain (k : nat) (F : forest) (n : nid) : list nid :=
  match k with
  | O => []
  | S k => match parent_of F n with Some p => p :: up_chain k F p | None => [] end
  end.

Lemma up_chain_anc k F : forall n a, In a (up_chain k F n) -> exists p, parent_of F n = Some p /\ anc_or_self F a p.
Proof.
  induction k as [|k IH]; intros n a H; [easy|]. cbn in H. destruct (parent_of F n) as [p|] eqn:E; [|easy].
  exists p. split; [easy|]. destruct H as [->|H]; [constructor|].
  destruct (IH p a H) as (q & Hq & Ha). eapply aos_up; eauto.
Qed.

Lemma up_chain_nodup k F : (forall n p, parent_of F n = Some p -> ~ anc_or_self F n p) ->
  forall n, NoDup (up_chain k F n).
Proof.
  intros Hno. induction k as [|k IH]; intros n; cbn; [constructor|].
  destruct (parent_of F n) as [p|] eqn:E; constructor; [|apply IH].
  intros H. apply up_chain_anc in H. destruct H as (q & Hq & Ha). now apply (Hno p q).
Qed.

Lemma up_chain_full k F : forall n p, parent_of F n = Some p -> length (up_chain k F p) < k ->
  length (up_chain (S k) F n) = S (length (up_chain k F p)).
Proof. intros n p E _. cbn [up_chain]. now rewrite E. Qed.

Lemma up_chain_stable k F : forall n, length (up_chain k F n) < k -> up_chain (S k) F n = up_chain k F n.
Proof.
  induction k as [|k IH]; intros n H; [cbn in H; lia|]. cbn [up_chain] in H |- *.
  destruct (parent_of F n) as [p|]; [|easy]. cbn in H. change (match parent_of F p with
    | Some p0 => p0 :: up_chain k F p0 | None => [] end) with (up_chain (S k) F p).
  rewrite IH; [easy|lia].
Qed.

Lemma nodup_bound l k : NoDup l -> (forall x, In x l -> x < k) -> length l <= k.
Proof.
  intros Hn Hb. rewrite <- (seq_length k 0). apply NoDup_incl_length; [easy|].
  intros x Hx. apply in_seq. specialize (Hb x Hx). lia.
Qed.

Theorem acyclic_dom_iff D F : InvF D F -> acyclic_dom D <-> acyclic F.
Proof.
  intros I. pose proof (iv_rep D F I) as R. split.
  - intros H. assert (Hno : forall n p, parent_of F n = Some p -> ~ anc_or_self F n p).
    { intros n p Hp Ha. apply (H n p); [|now apply (above_anc _ F)]. unfold parent. now rewrite (r_parent _ _ R). }
    set (k := S (fresh D)). exists (fun n => length (up_chain k F n)), k.
    assert (Hlen : forall n, length (up_chain k F n) < k).
    { intros n. apply Nat.lt_succ_r. apply nodup_bound; [now apply up_chain_nodup|].
      intros x Hx. apply up_chain_anc in Hx. destruct Hx as (p & Hp & Ha).
      destruct (iso_no_parent D F n p I Hp) as (_ & Hpl). now apply (anc_lt D F x p). }
    split.
    + intros n. specialize (Hlen n). lia.
    + intros n p Hp. pose proof (up_chain_full k F n p Hp (Hlen p)) as E.
      rewrite up_chain_stable in E by apply Hlen. lia.
  - intros HA n p Hp Ha. apply (above_anc _ F) in Ha; [|easy].
    unfold parent in Hp. rewrite (r_parent _ _ R) in Hp. now apply (acyclic_no_loop F n p HA Ha).
Qed.

(* subtrees are finite and consist of existing nodes *)
Lemma tree_nodes_exist D F t : InvF D F -> tree_at F t -> t_node t < fresh D ->
  forall x, In x (preorder t) -> x < fresh D.
Proof.
  intros I Ht Hn x Hx. pose proof (r_wf _ _ (iv_rep D F I)) as W.
  apply (preorder_iff F t x W Ht) in Hx. destruct Hx as [|a x p Hp _]; [easy|].
  now apply (iso_no_parent D F x p).
Qed.
Lemma tree_size D F t : InvF D F -> tree_at F t -> t_node t < fresh D ->
  length (preorder t) <= fresh D.
Proof.
  intros I Ht Hn. apply nodup_bound.
  - apply (preorder_nodup F t); [apply (iv_rep D F I)|easy].
  - now apply (tree_nodes_exist D F t).
Qed.
