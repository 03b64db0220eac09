(* remove_node returns exactly on the nodes with a finite tree. *)
From Coq Require Import List Bool PeanoNat NArith Lia.
From Verif Require Import Base Ids Links Tree Iter ForestSpec ListFacts TreeProofs ForestFacts IterSpec IterProofs
  PruneFacts Data Attrs Slab SlabProofs NodeApi Doc AttrFacts LinkProofs DocSpec RemoveProofs Loops.
Import ListNotations.

Lemma finite_kids F n : (forall c, In c (children_of F n) -> finite_at F c) -> finite_at F n.
Proof.
  intros H. destruct (trees_of_list F (children_of F n) H) as (ts & E & Hall).
  exists (T n ts). split; [easy|]. constructor; easy.
Qed.
Lemma finite_below F t x : tree_at F t -> In x (preorder t) -> finite_at F x.
Proof. intros Ht Hx. destruct (subtree_at F t x Ht Hx) as (u & E & Hu & _). now exists u. Qed.

Lemma unprune F t : tree_at F t -> forall u, tree_at (f_prune (preorder t) F) u -> finite_at F (t_node u).
Proof.
  intros Ht. induction u as [n ts IH] using tree_ind'. intros Hat. inversion Hat as [? ? E Hall]; subst. cbn [t_node].
  destruct (mem n (preorder t)) eqn:Em.
  { apply mem_In in Em. now apply (finite_below F t). }
  cbn in E. rewrite Em in E. apply finite_kids. intros c Hc.
  destruct (mem c (preorder t)) eqn:Ec.
  { apply mem_In in Ec. now apply (finite_below F t). }
  assert (Hin : In c (map t_node ts)).
  { rewrite <- E. apply in_without. split; [easy|]. now apply mem_not_In. }
  apply in_map_iff in Hin. destruct Hin as (v & <- & Hv). rewrite Forall_forall in IH, Hall.
  apply IH; [easy|now apply Hall].
Qed.

(* more fuel does not change an answer *)
Lemma for_children_mono {A} (getL : A -> links) body body' :
  (forall c s, body c s <> Diverge -> body' c s = body c s) ->
  forall f f' it s, f <= f' -> for_children getL f body it s <> Diverge ->
  for_children getL f' body' it s = for_children getL f body it s.
Proof.
  intros Hb. induction f as [|f IH]; intros f' it s Hf H; [easy|]. destruct f' as [|f']; [lia|].
  cbn [for_children] in *. destruct (children_next (getL s) it) as [[c|] it']; [|easy].
  destruct (body c s) as [s1| |] eqn:E; cbn [bind] in *.
  - rewrite Hb, E; [|now rewrite E]. cbn [bind]. apply IH; [lia|easy].
  - rewrite Hb, E; [|now rewrite E]. easy.
  - easy.
Qed.

Lemma remove_rec_mono : forall f f' n D, f <= f' -> remove_rec f n D <> Diverge ->
  remove_rec f' n D = remove_rec f n D.
Proof.
  induction f as [|f IH]; intros f' n D Hf H; [easy|]. destruct f' as [|f']; [lia|].
  cbn [remove_rec] in *. destruct (remove_links n D) as [D1| |]; cbn [bind] in *; [|easy|easy].
  assert (G : for_children lk f (remove_rec f) (children (lk D1) n) D1 <> Diverge).
  { intros G. now rewrite G in H. }
  rewrite (for_children_mono lk (remove_rec f) (remove_rec f')) with (f := f); [easy| |lia|easy].
  intros c s Hs. apply IH; [lia|easy].
Qed.

Lemma remove_rec_finite t fuel D F : RInv D F -> tree_at F t -> remove_rec fuel (t_node t) D <> Diverge ->
  exists D', remove_rec fuel (t_node t) D = Ok D' /\ RInv D' (f_prune (preorder t) F).
Proof.
  intros I Ht H. set (big := fuel + S (length (preorder t))).
  destruct (remove_rec_spec t big D F I Ht) as (D' & E & I' & _); [unfold big; lia|].
  exists D'. split; [|easy]. rewrite <- E. symmetry. apply remove_rec_mono; [unfold big; lia|easy].
Qed.

Lemma last_error_cons (c : nid) r : r <> [] -> last_error (c :: r) = last_error r.
Proof.
  intros H. unfold last_error. cbn. destruct (rev r) as [|x l] eqn:E; [|easy].
  apply (f_equal (@rev nid)) in E. rewrite rev_involutive in E. easy.
Qed.

Lemma remove_loop_finite fuel :
  (forall n D F, RInv D F -> remove_rec fuel n D <> Diverge -> finite_at F n) ->
  forall f n l D F, RInv D F -> children_of F n = l ->
  for_children lk f (remove_rec fuel) (mkChildren (hd_error l) (last_error l)) D <> Diverge -> finite_at F n.
Proof.
  intros Hrec. induction f as [|f IH]; intros n l D F I El H; [easy|].
  destruct l as [|c r].
  { exists (T n []). split; [easy|]. constructor; [easy|constructor]. }
  cbn [for_children] in H. pose proof (r_wf _ _ (proj1 I)) as W.
  pose proof (children_next_at (lk D) F n [] (c :: r) (proj1 I) El) as Hn. rewrite El in Hn. rewrite Hn in H.
  assert (Hc : remove_rec fuel c D <> Diverge) by (intros Hd; now rewrite Hd in H).
  destruct (Hrec c D F I Hc) as (t & <- & Ht).
  destruct (remove_rec_finite t fuel D F I Ht Hc) as (D1 & E1 & I1). rewrite E1 in H. cbn [bind] in H.
  destruct (mem n (preorder t)) eqn:Em.
  { apply mem_In in Em. now apply (finite_below F t). }
  assert (Hnin : ~ In n (preorder t)) by now apply mem_not_In.
  destruct r as [|c' r'].
  { apply finite_kids. intros x Hx. rewrite El in Hx. destruct Hx as [<-|[]]. now exists t. }
  set (r := c' :: r') in *.
  assert (Ek : children_of (f_prune (preorder t) F) n = r).
  { cbn. rewrite Em, El. unfold without. cbn [filter].
    replace (mem (t_node t) (preorder t)) with true by (symmetry; apply mem_In, preorder_self). cbn [negb].
    apply without_none. intros x Hx Hin.
    pose proof (children_nodup F W n) as Hnd. rewrite El in Hnd. inversion Hnd as [|? ? Hni _]; subst.
    apply (preorder_iff F t x W Ht) in Hin. inversion Hin as [|? ? p Hp Ha]; subst; [easy|].
    assert (Hpx : parent_of F x = Some n) by (apply (wf_child F W); rewrite El; now right).
    rewrite Hpx in Hp. injection Hp as <-. apply Hnin. now apply (preorder_iff F t n W Ht). }
  assert (Hfin : finite_at (f_prune (preorder t) F) n).
  { apply (IH n r D1 _ I1 Ek). rewrite <- (last_error_cons (t_node t) r); [exact H|easy]. }
  destruct Hfin as (u & <- & Hu). now apply (unprune F t).
Qed.

Theorem remove_rec_finite_only : forall fuel n D F, RInv D F -> remove_rec fuel n D <> Diverge -> finite_at F n.
Proof.
  induction fuel as [|fuel IH]; intros n D F (R & I & Hs) H; [easy|]. cbn [remove_rec] in H.
  destruct (remove_links_spec n D I) as (D1 & E1 & Hf1 & I1 & _). rewrite E1 in H. cbn [bind] in H.
  assert (R1 : Rep (lk D1) F) by (rewrite (fr_lk D D1 Hf1); exact R).
  assert (Hs1 : slab_ok (store D1) (storage_key D1)).
  { rewrite (fr_store D D1 Hf1). eapply slab_ok_ext; [|exact Hs]. apply (fr_key D D1 Hf1). }
  apply (remove_loop_finite fuel IH fuel n (children_of F n) D1 F); [now split|easy|].
  rewrite <- (children_it (lk D1) F n R1). intros Hd. now rewrite Hd in H.
Qed.
