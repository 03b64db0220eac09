(* Drop for Document. *)
From Coq Require Import List Bool PeanoNat NArith Lia.
From Verif Require Import Base Ids Links Tree Iter ForestSpec ListFacts TreeProofs ForestFacts IterSpec IterProofs
  PruneFacts Data Attrs Slab SlabProofs NodeApi Doc AttrFacts LinkProofs DocSpec RemoveProofs History InvProofs
  HistoryProofs DrainProofs.
Import ListNotations.

Definition detach_all (l : list nid) (F : forest) : forest := fold_left (fun F n => f_detach n F) l F.

Lemma without_nil l : without [] l = l.
Proof. unfold without. induction l as [|x l IH]; [easy|]. cbn [filter]. change (mem x []) with false. cbn [negb]. now rewrite IH. Qed.

Lemma split_unique (l1 l2 k1 k2 : list nid) c : NoDup (l1 ++ c :: l2) -> l1 ++ c :: l2 = k1 ++ c :: k2 ->
  l1 = k1 /\ l2 = k2.
Proof.
  revert k1. induction l1 as [|x l1 IH]; intros [|y k1] Hnd E; cbn in *.
  - now injection E.
  - injection E as E1 E2. subst. inversion Hnd; subst. exfalso. apply H1, in_app_iff. right. now left.
  - injection E as E1 E2. subst. inversion Hnd; subst. exfalso. apply H1, in_app_iff. right. now left.
  - injection E as E1 E2. inversion Hnd; subst. destruct (IH k1) as (-> & ->); easy.
Qed.

Lemma detach_all_spec : forall l F x,
  parent_of (detach_all l F) x = (if mem x l then None else parent_of F x) /\
  siblings_of (detach_all l F) x = (if mem x l then [x] else without l (siblings_of F x)) /\
  children_of (detach_all l F) x = without l (children_of F x).
Proof.
  induction l as [|n l IH]; intros F x; cbn [detach_all fold_left].
  - change (mem x []) with false. now rewrite !without_nil.
  - destruct (IH (f_detach n F) x) as (H1 & H2 & H3). change (fold_left _ l (f_detach n F)) with (detach_all l (f_detach n F)).
    rewrite H1, H2, H3, mem_cons. cbn [f_detach parent_of siblings_of children_of].
    assert (Hw : forall k, without l (rm n k) = without (n :: l) k).
    { intros k. unfold without, rm. induction k as [|y k IHk]; [easy|]. cbn [filter]. rewrite mem_cons.
      destruct (Nat.eqb y n); cbn [negb orb filter]; [exact IHk|].
      destruct (mem y l); cbn [negb]; [exact IHk|]. now rewrite IHk. }
    rewrite Hw.
    destruct (Nat.eqb_spec x n) as [->|Hxn]; cbn [orb].
    + destruct (mem n l) eqn:Em; [easy|]. split; [easy|]. split; [|easy].
      unfold without. cbn. now rewrite Em.
    + destruct (mem x l) eqn:Em; [easy|]. rewrite Hw. easy.
Qed.

Lemma drop_loop_spec : forall l D F, Rep (lk D) F -> acyclic F ->
  exists D', drop_loop l D = Ok D' /\ Rep (lk D') (detach_all l F) /\ acyclic (detach_all l F) /\
    (forall x, attributes D' x = if mem x l then [] else attributes D x) /\
    (forall x, linked_nodes D' x = if mem x l then [] else linked_nodes D x).
Proof.
  induction l as [|n l IH]; intros D F R HA.
  - exists D. split; [easy|]. split; [exact R|]. split; [exact HA|]. split; easy.
  - cbn [drop_loop]. set (D1 := modify n (set_linked []) (modify n (set_attrs (attrs_clear (attributes D n))) D)).
    destruct (detach_nil_ok n (lk D1) F R (acyclic_parent_neq F n HA)) as (L & E & RL & _). rewrite E. cbn [bind].
    assert (A1 : forall x, attributes D1 x = if Nat.eqb x n then [] else attributes D x).
    { intros x. unfold D1, modify, attributes. cbn. rewrite !upd_eq. destruct (Nat.eqb_spec x n) as [->|]; [now rewrite ?Nat.eqb_refl|easy]. }
    assert (L1 : forall x, linked_nodes D1 x = if Nat.eqb x n then [] else linked_nodes D x).
    { intros x. unfold D1, modify, linked_nodes. cbn. rewrite !upd_eq. destruct (Nat.eqb_spec x n) as [->|]; easy. }
    destruct (IH (with_lk L D1) (f_detach n F) RL (acyclic_detach n F HA)) as (D' & E' & R' & HA' & Ha & Hl).
    exists D'. split; [easy|]. split; [easy|]. split; [easy|].
    change (attributes (with_lk L D1)) with (attributes D1) in Ha.
    change (linked_nodes (with_lk L D1)) with (linked_nodes D1) in Hl.
    split.
    + intros x. rewrite Ha, A1, mem_cons. destruct (mem x l), (Nat.eqb x n); easy.
    + intros x. rewrite Hl, L1, mem_cons. destruct (mem x l), (Nat.eqb x n); easy.
Qed.

Theorem drop_spec D F : InvF D F -> acyclic F ->
  exists D' F', drop_document D = Ok D' /\ Rep (lk D') F' /\ acyclic F' /\
    (forall n, storage_key D n <> None ->
       attributes D' n = [] /\ linked_nodes D' n = [] /\ parent_of F' n = None /\ siblings_of F' n = [n]) /\
    (forall n, storage_key D n = None ->
       attributes D' n = attributes D n /\ linked_nodes D' n = linked_nodes D n).
Proof.
  intros I HA. unfold drop_document.
  destruct (drop_loop_spec (slab_iter (store D)) D F (iv_rep D F I) HA) as (D' & E & R & HA' & Ha & Hl).
  assert (Hin : forall n, mem n (slab_iter (store D)) = match storage_key D n with Some _ => true | None => false end).
  { intros n. pose proof (iv_slab D F I) as S. destruct (storage_key D n) as [k|] eqn:Ek.
    - apply mem_In, in_slab_iter. exists k. now apply (so_fwd _ _ S).
    - apply mem_not_In. intros H. apply in_slab_iter in H. destruct H as (k & Hk). apply (so_bwd _ _ S) in Hk. congruence. }
  exists D', (detach_all (slab_iter (store D)) F). split; [easy|]. split; [easy|]. split; [easy|]. split.
  - intros n Hn. destruct (detach_all_spec (slab_iter (store D)) F n) as (H1 & H2 & _).
    rewrite Ha, Hl, H1, H2, Hin. destruct (storage_key D n); [easy|congruence].
  - intros n Hn. rewrite Ha, Hl, Hin, Hn. easy.
Qed.

(* ---- no cycle of strong references is left *)
Definition after (a s : nid) (l : list nid) : Prop := exists l1 l2, l = l1 ++ a :: l2 /\ In s l2.

Lemma after_succ a c l s : NoDup l -> succ_in a l = Some c -> s = c \/ after c s l -> after a s l.
Proof.
  intros Hnd Hs H.
  assert (Ha : exists l1 l2, l = l1 ++ a :: c :: l2).
  { clear H. induction l as [|x l IH]; [easy|]. cbn in Hs. destruct (Nat.eqb_spec x a) as [->|].
    - destruct l as [|y l]; [easy|]. injection Hs as ->. now exists [], l.
    - inversion Hnd; subst. destruct (IH H2 Hs) as (l1 & l2 & ->). now exists (x :: l1), l2. }
  destruct Ha as (l1 & l2 & ->). exists l1, (c :: l2). split; [easy|]. destruct H as [->|H]; [now left|].
  right. destruct H as (k1 & k2 & E & Hs2).
  assert (E2 : (l1 ++ [a]) ++ c :: l2 = k1 ++ c :: k2) by (rewrite <- app_assoc; exact E).
  assert (Hnd2 : NoDup ((l1 ++ [a]) ++ c :: l2)) by (rewrite <- app_assoc; exact Hnd).
  destruct (split_unique _ _ _ _ _ Hnd2 E2) as (_ & ->). easy.
Qed.

Inductive tree_edge (L : links) : nid -> nid -> Prop :=
| te_child : forall a b, first_child L a = Some b -> tree_edge L a b
| te_next  : forall a b, next_sibling L a = Some b -> tree_edge L a b.
Inductive tree_path (L : links) : nid -> nid -> Prop :=
| tp_one  : forall a b, tree_edge L a b -> tree_path L a b
| tp_more : forall a b c, tree_edge L a b -> tree_path L b c -> tree_path L a c.

Lemma tree_path_shape L F a b : Rep L F -> tree_path L a b ->
  exists s, anc_or_self F s b /\ (parent_of F s = Some a \/ after a s (siblings_of F a)).
Proof.
  intros R H. pose proof (r_wf _ _ R) as W.
  assert (Hedge : forall a c, tree_edge L a c ->
    (parent_of F c = Some a) \/ (siblings_of F c = siblings_of F a /\ parent_of F c = parent_of F a /\ succ_in a (siblings_of F a) = Some c)).
  { intros x c E. destruct E as [x c E|x c E].
    - left. unfold first_child in E. rewrite (r_first _ _ R) in E. apply (wf_child F W). destruct (children_of F x); [easy|].
      injection E as ->. now left.
    - right. unfold next_sibling in E. rewrite (r_next _ _ R) in E. destruct (succ_in_In _ _ _ E) as (_ & Hin).
      destruct (wf_share F W x c Hin) as (Q1 & Q2). now rewrite Q1, Q2. }
  induction H as [a b E|a c b E H IH].
  - apply Hedge in E. destruct E as [E|(_ & _ & E)].
    + exists b. split; [constructor|now left].
    + exists b. split; [constructor|]. right. apply (after_succ a b); [apply W|easy|now left].
  - apply Hedge in E. destruct IH as (s & Hs & Hc). destruct E as [E|(E1 & E2 & E3)].
    + destruct Hc as [Hc|Hc].
      * exists c. split; [|now left]. eapply anc_trans; [apply anc_parent; exact Hc|exact Hs].
      * exists s. split; [easy|]. left. destruct Hc as (l1 & l2 & El & Hin).
        destruct (wf_share F W c s) as (_ & Ep); [|congruence]. rewrite El. apply in_app_iff. right. now right.
    + destruct Hc as [Hc|Hc].
      * exists c. split; [eapply anc_trans; [apply anc_parent; exact Hc|exact Hs]|]. right.
        apply (after_succ a c); [apply W|easy|now left].
      * exists s. split; [easy|]. right. rewrite E1 in Hc. apply (after_succ a c); [apply W|easy|now right].
Qed.

Lemma tree_no_cycle L F a : Rep L F -> acyclic F -> ~ tree_path L a a.
Proof.
  intros R HA H. pose proof (r_wf _ _ R) as W. apply (tree_path_shape L F a a R) in H.
  destruct H as (s & Hs & [Hc|(l1 & l2 & El & Hin)]).
  - now apply (acyclic_no_loop F s a HA Hs).
  - assert (Hin2 : In s (siblings_of F a)) by (rewrite El; apply in_app_iff; right; now right).
    destruct (wf_share F W a s Hin2) as (_ & Ep).
    destruct Hs as [a|s a p Hp Hs].
    + pose proof (wf_nodup F W a) as Hnd. rewrite El in Hnd. apply NoDup_remove_2 in Hnd. apply Hnd, in_app_iff. now right.
    + apply (acyclic_no_loop F s p HA Hs). congruence.
Qed.

Theorem drop_no_cycle D F : InvF D F -> acyclic F ->
  (forall n, storage_key D n = None -> unlinked D n) ->
  exists D', drop_document D = Ok D' /\ forall n, ~ keeps_alive D' n n.
Proof.
  intros I HA Hu. destruct (drop_spec D F I HA) as (D' & F' & E & R & HA' & Hst & Hun).
  exists D'. split; [easy|]. 
  assert (Hno : forall n, (forall a, In a (attributes D' n) -> link_target (a_value a) = None) /\ linked_nodes D' n = []).
  { intros n. destruct (storage_key D n) eqn:Ek.
    - destruct (Hst n) as (-> & -> & _); [congruence|]. easy.
    - destruct (Hun n Ek) as (-> & ->). now apply Hu. }
  assert (Hp : forall a b, keeps_alive D' a b -> tree_path (lk D') a b).
  { assert (He : forall a b, strong D' a b -> tree_edge (lk D') a b).
    { intros a b [H|[H|[(x & Hx & Ht)|H]]]; [now constructor|now apply te_next| |]; exfalso; destruct (Hno a) as (H1 & H2).
      - rewrite (H1 x Hx) in Ht. easy.
      - rewrite H2 in H. easy. }
    intros a b H. induction H; [apply tp_one|eapply tp_more]; eauto. }
  intros n Hn. apply Hp in Hn. now apply (tree_no_cycle (lk D') F' n R HA').
Qed.
