(* The statements about the calls of Document under guards. *)
From Coq Require Import List Bool PeanoNat NArith Lia.
From Verif Require Import Base Ids Links Tree Iter ForestSpec TreeSpec ListFacts TreeProofs ForestFacts IterSpec IterProofs
  PruneFacts TreeApi Data Attrs AttrFacts Slab SlabProofs NodeApi AttrSpec Doc DocSpec History LinkProofs RemoveProofs InvProofs
  DrainProofs DropProofs DropExact LoopExact CopyProofs HistoryProofs ApiProofs DocApi MixProofs WorldProofs Guards GuardSpec GuardTree GuardProofs
  GuardDoc GuardDocSpec GuardDocProofs GuardDrain GuardCopy.
Import ListNotations.

Lemma bounds_same {A} (stop hit : Prop) (v : A) r g : r = Ok v -> bounds hit hit v g -> (stop <-> hit) -> same_unless stop r g.
Proof.
  intros -> B H. split; [discriminate|]. intros w [= <-]. rewrite H. destruct B as [(E & X)|(E & X)]; split; tauto.
Qed.
Lemma blocked_hit g S D D' : removal_blocked g S D D' <-> tree_hit g S D D'.
Proof. unfold removal_blocked, tree_hit, altered, changed. split; intros (x & H); exists x; tauto. Qed.

Theorem remove_node_under g D F t : reachable D -> shows (lk D) F -> tree_at F t -> exists_node D (t_node t) ->
  exists D', remove_node (t_node t) D = Ok D' /\
    same_unless (removal_blocked g (preorder t) D D') (remove_node (t_node t) D) (g_remove_node g (t_node t) D).
Proof.
  intros R S Ht Hn. pose proof (shows_inv D F R S) as I. destruct (node_bounds g D F t I Ht Hn) as (D' & E & _ & _ & _ & B).
  exists D'. split; [exact E|]. exact (bounds_same _ _ _ _ _ E B (blocked_hit g _ D D')).
Qed.
Theorem drain_under g D F t f : reachable D -> shows (lk D) F -> tree_at F t -> exists_node D (t_node t) -> stable f D ->
  let tops := flat_map (maximal (f D)) (t_kids t) in
  exists D', drain (t_node t) f D = Ok (D', length tops) /\
    same_unless (drain_blocked g (preorder t) (flat_map preorder tops) D D') (drain (t_node t) f D) (g_drain g (t_node t) f D).
Proof.
  intros R S Ht Hn Hst tops. pose proof (shows_inv D F R S) as I. destruct (drain_bounds g D F t f I Ht Hn Hst) as (D' & E & B).
  exists D'. split; [exact E|]. apply (bounds_same _ _ _ _ _ E B). unfold drain_blocked, drain_hit. now rewrite blocked_hit.
Qed.

(* ---- copies *)
Definition weaker {A} (free guarded : res A) : Prop := guarded = free \/ (exists q, guarded = Panic q) \/ free = Diverge.
Lemma weaker_panic {A} (free guarded : res A) q : weaker free guarded -> free = Panic q -> exists q', guarded = Panic q'.
Proof. intros [-> |[H|H]] E; [eauto|easy|congruence]. Qed.
Lemma weaker_bind {A B} (r g : res A) (k h : A -> res B) : weaker r g -> (forall v, r = Ok v -> weaker (k v) (h v)) ->
  weaker (bind r k) (bind g h).
Proof.
  intros [-> |[(q & ->)| ->]] H.
  - destruct r as [v|q|]; [now apply H|right; left; now exists q|right; now right].
  - right. left. now exists q.
  - right. now right.
Qed.
Lemma weaker_reading {A} g n (r : res A) k : weaker r k -> weaker r (reading g n k).
Proof. intros H. unfold reading. destruct (mem _ _); [right; left; now eexists|exact H]. Qed.
Lemma weaker_copy g n D : reachable D -> n < fresh D -> (forall x, held g x -> x < fresh D) -> weaker (copy_node n D) (g_copy_node g n D).
Proof.
  intros R Hn Hg. destruct (g_copy_node_cases g n D R Hn Hg) as (A & B & C). cbv zeta in A, C.
  destruct (copy_stop_dec g D n) as [H|H].
  - destruct (copy_node n D) as [r|q|] eqn:E; [|right; left; now apply (B q)|right; now right]. right. left. exists PBorrow.
    apply (C r eq_refl). destruct H as [H|(Ht & a & t & H)]; [now left|]. right. now exists a, t.
  - left. apply A. intros [X|(a & t & X & Y)]; apply H; [now left|]. right. split; [easy|]. now exists a, t.
Qed.
Lemma weaker_append g p n D : reachable D -> weaker (L <- append [] p n (lk D) ;; Ok (with_lk L D)) (g_append g p n D).
Proof.
  intros R. destruct (g_append_moves g p n D R) as (M1 & M2). change (step (OAppend p n) D) with (L <- append [] p n (lk D) ;; Ok (with_lk L D)) in M1, M2.
  destruct (L <- append [] p n (lk D) ;; Ok (with_lk L D)) as [D'|q|]; [|right; left; exists q; now apply M1|right; now right].
  destruct (M2 D' eq_refl) as (A & B). destruct (search g (fun x => ~ same_neighbours D D' x)) as [(x & Hx & H)|H].
  - intros x. destruct (same_neighbours_dec D D' x); tauto.
  - right. left. exists PBorrow. apply B. exists x. tauto.
  - left. apply A. intros x Hx. split; [easy|]. destruct (same_neighbours_dec D D' x); [easy|]. now apply H in Hx.
Qed.
Lemma weaker_next g L it : weaker (Ok (children_next L it)) (g_children_next g L it).
Proof. destruct (children_next_bounds g L it) as [(E & _)|(E & _)]; rewrite E; [now left|right; left; now eexists]. Qed.

Lemma children_next_old L it c it' k : (forall n, olt k (l_next L n)) -> olt k (c_next it) -> children_next L it = (Some c, it') ->
  c < k /\ olt k (c_next it').
Proof.
  intros Hb Ho E. unfold children_next in E. destruct (children_finished L it); [discriminate|].
  destruct (c_next it) as [n|]; [|discriminate]. injection E as <- <-. split; [now apply Ho|apply Hb].
Qed.
Lemma olt_le k k' o : k <= k' -> olt k o -> olt k' o.
Proof. intros H Ho x E. specialize (Ho x E). lia. Qed.
Lemma weaker_deep g k : (forall x, held g x -> x < k) -> forall fuel p n D, reachable D -> k <= fresh D -> p < fresh D -> n < fresh D ->
  weaker (make_deep_copy fuel p n D) (g_make_deep_copy fuel g p n D) /\
  forall D', make_deep_copy fuel p n D = Ok D' -> reachable D' /\ fresh D <= fresh D'.
Proof.
  intros Hg. induction fuel as [|fuel IH]; intros p n D R Hk Hp Hn; [split; [right; now right|discriminate]|].
  cbn [make_deep_copy g_make_deep_copy].
  set (body := fun child D =>
           r <- copy_node child D ;;
           let new_node := fst r in
           L <- append [] p new_node (lk (snd r)) ;;
           let D := with_lk L (snd r) in
           if has_children (lk D) child then make_deep_copy fuel new_node child D else Ok D).
  set (gbody := fun child D =>
           r <- g_copy_node g child D ;;
           let new_node := fst r in
           D <- g_append g p new_node (snd r) ;;
           reading g child (if has_children (lk D) child then g_make_deep_copy fuel g new_node child D else Ok D)).
  assert (Hbody : forall c D, reachable D -> k <= fresh D -> p < fresh D -> c < fresh D ->
    weaker (body c D) (gbody c D) /\ forall D', body c D = Ok D' -> reachable D' /\ fresh D <= fresh D').
  { clear D R Hk Hp Hn. intros c D R Hk Hp Hc.
    assert (H1 : forall r, copy_node c D = Ok r -> reachable (snd r) /\ fst r = fresh D /\ fresh (snd r) = S (fresh D)).
    { intros r E. destruct (copy_node_keeps c D r E) as (X & _ & Y). split; [|easy].
      apply (reach_step D (OCopyNode c)); [easy| |cbn; now rewrite E]. split; [|exact Logic.I]. intros x [<-|[]]. exact Hc. }
    assert (H2 : forall r L, copy_node c D = Ok r -> append [] p (fst r) (lk (snd r)) = Ok L -> reachable (with_lk L (snd r))).
    { intros r L E E2. destruct (H1 r E) as (R1 & X & Y). apply (reach_step (snd r) (OAppend p (fst r))); [easy| |cbn; unfold on_links; now rewrite E2].
      split; [|exact Logic.I]. intros x [<-|[<-|[]]]; unfold exists_node; lia. }
    split.
    - unfold body, gbody. apply weaker_bind; [apply weaker_copy; [easy|easy|]; intros x Hx; apply Hg in Hx; lia|].
      intros r E. destruct (H1 r E) as (R1 & X & Y).
      assert (Hassoc : (L <- append [] p (fst r) (lk (snd r)) ;; let D := with_lk L (snd r) in
           if has_children (lk D) c then make_deep_copy fuel (fst r) c D else Ok D) =
         bind (L <- append [] p (fst r) (lk (snd r)) ;; Ok (with_lk L (snd r)))
           (fun D => if has_children (lk D) c then make_deep_copy fuel (fst r) c D else Ok D)).
      { now destruct (append [] p (fst r) (lk (snd r))). }
      cbv zeta. cbv zeta in Hassoc. rewrite Hassoc. apply weaker_bind; [now apply weaker_append|].
      intros D2 E2. apply weaker_reading. destruct (append [] p (fst r) (lk (snd r))) as [L|q|] eqn:El; cbn [bind] in E2; try discriminate.
      injection E2 as <-. destruct (has_children _ c); [|now left].
      apply IH; [now apply H2|cbn [fresh with_lk]; lia|cbn [fresh with_lk]; lia|cbn [fresh with_lk]; lia].
    - intros D' E. unfold body in E. destruct (copy_node c D) as [r|q|] eqn:Ec; cbn [bind] in E; try discriminate.
      destruct (append [] p (fst r) (lk (snd r))) as [L|q|] eqn:El; cbn [bind] in E; try discriminate.
      destruct (H1 r eq_refl) as (R1 & X & Y). pose proof (H2 r L eq_refl El) as R2.
      destruct (has_children _ c); [|injection E as <-; cbn [fresh with_lk]; split; [easy|lia]].
      destruct (IH (fst r) c (with_lk L (snd r)) R2) as (_ & Z); cbn [fresh with_lk] in *; try lia.
      destruct (Z D' E) as (Z1 & Z2). split; [easy|lia]. }
  assert (Hloop : forall fuel' it D, reachable D -> k <= fresh D -> p < fresh D -> olt (fresh D) (c_next it) ->
    weaker (for_children lk fuel' body it D) (g_for_children g lk fuel' gbody it D) /\
    forall D', for_children lk fuel' body it D = Ok D' -> reachable D' /\ fresh D <= fresh D').
  { clear D R Hk Hp Hn; induction fuel' as [|fuel' IHf]; intros it D R Hk Hp Hit; [split; [right; now right|discriminate]|].
    cbn [for_children g_for_children].
    pose proof (children_next_old (lk D) it) as Ho.
    assert (Hb : forall n, olt (fresh D) (l_next (lk D) n)) by (intros y; apply (bd_links D (reachable_bounded D R) y)).
    destruct (children_next (lk D) it) as [[c|] it'] eqn:En.
    - destruct (Ho c it' (fresh D) Hb Hit eq_refl) as (Hc & Hit'). destruct (Hbody c D R Hk Hp Hc) as (W1 & W2).
      assert (Hrest : forall D1, body c D = Ok D1 -> _) by
        (intros D1 E1; destruct (W2 D1 E1) as (R1 & Hf1);
         exact (IHf it' D1 R1 (Nat.le_trans _ _ _ Hk Hf1) (Nat.lt_le_trans _ _ _ Hp Hf1) (olt_le _ _ _ Hf1 Hit'))).
      split.
      + change (s <- body c D ;; for_children lk fuel' body it' s) with
          (bind (Ok (Some c, it')) (fun r => match r with | (Some c, it') => s <- body c D ;; for_children lk fuel' body it' s
             | (None, _) => Ok D end)).
        apply weaker_bind; [rewrite <- En; apply weaker_next|]. intros v [= <-]. apply weaker_bind; [exact W1|].
        intros D1 E1. exact (proj1 (Hrest D1 E1)).
      + intros D' E. destruct (body c D) as [D1|q|] eqn:E1; cbn [bind] in E; try discriminate.
        destruct (Hrest D1 eq_refl) as (_ & Z). destruct (Z D' E) as (Z1 & Z2). destruct (W2 D1 eq_refl). split; [easy|lia].
    - split; [|intros D' [= <-]; split; [easy|lia]].
      change (Ok D) with (bind (Ok (@None nid, it')) (fun r => match r with | (Some c, it') => s <- body c D ;; for_children lk fuel' body it' s
             | (None, _) => Ok D end)) at 1.
      apply weaker_bind; [rewrite <- En; apply weaker_next|]. intros v [= <-]. now left. }
  assert (Hit : olt (fresh D) (c_next (children (lk D) n))) by (apply (bd_links D (reachable_bounded D R) n)).
  destruct (Hloop fuel (children (lk D) n) D R Hk Hp Hit) as (W1 & W2). split; [|exact W2].
  change (for_children lk fuel body (children (lk D) n) D) with (bind (Ok (children (lk D) n)) (fun it => for_children lk fuel body it D)).
  apply weaker_bind; [apply weaker_reading; now left|]. intros it [= <-]. exact W1.
Qed.
Lemma weaker_copy_deep g n D : reachable D -> n < fresh D -> (forall x, held g x -> x < fresh D) ->
  weaker (copy_node_deep n D) (g_copy_node_deep g n D).
Proof.
  intros R Hn Hg. unfold copy_node_deep, g_copy_node_deep. apply weaker_bind; [now apply weaker_copy|].
  intros r E. destruct (copy_node_keeps n D r E) as (X & _ & Y).
  assert (R1 : reachable (snd r)).
  { apply (reach_step D (OCopyNode n)); [easy| |cbn; now rewrite E]. split; [|exact Logic.I]. intros x [<-|[]]. exact Hn. }
  apply weaker_bind; [|now left]. apply (weaker_deep g (fresh D) Hg); [easy|lia|lia|lia].
Qed.
Theorem copy_deep_under g D F t : reachable D -> shows (lk D) F -> tree_at F t -> exists_node D (t_node t) ->
  (forall x, held g x -> exists_node D x) ->
  same_unless (copy_blocked g (preorder t) D) (copy_node_deep (t_node t) D) (g_copy_node_deep g (t_node t) D).
Proof.
  intros R S Ht Hn Hg. split; [intros q E; exact (weaker_panic _ _ q (weaker_copy_deep g (t_node t) D R Hn Hg) E)|].
  intros r E. pose proof (shows_inv D F R S) as I. pose proof (r_wf _ _ (iv_rep D F I)) as W.
  assert (Hcp : forall x, In x (preorder t) -> copyable D x).
  { destruct (proj1 (deep_exact_api D F (t_node t) R S Hn) (ex_intro _ r E)) as (t' & E' & Ht' & H).
    assert (t' = t) as -> by (apply (tree_at_unique F); [easy|easy|congruence]). exact H. }
  pose proof (tree_nodes_exist D F t I Ht Hn) as Hlt.
  destruct (Hcp _ (preorder_self t)) as (Hnr & Htg).
  destruct (copy_node_spec D F (t_node t) I Hn Hnr Htg) as (D1 & E1 & I1 & Hlk1 & Hf1 & Hco & Hcf).
  pose proof (copy_bounds g (t_node t) D F _ I Hn Hg E1) as B1. set (m := fresh D) in *.
  pose proof (iv_iso D F I m (le_n _)) as Hiso.
  assert (G : grown [t_node t] D D1).
  { destruct Hcf as [Hr0 Hf0 Hold]. split; try (intros x Hxl; destruct (Hold x Hxl) as (Q1&Q2&Q3&Q4&Q5&Q6&Q7)); try easy.
    exists (repeat m (count_links x (attributes D (t_node t)))). split; [exact Q7|]. split.
    - rewrite Forall_forall. intros u Hu. apply repeat_spec in Hu. subst u. unfold m in *. lia.
    - intros Hne. destruct (count_links x (attributes D (t_node t))) eqn:Ec; [easy|].
      assert (Hpos : 0 < count_links x (attributes D (t_node t))) by lia.
      apply count_links_pos in Hpos. destruct Hpos as (a & Ha & Hta). exists (t_node t), a. split; [now left|easy]. }
  assert (G1 : forall x, x < fresh D -> node_type D1 x = node_type D x /\ attributes D1 x = attributes D x).
  { intros x Hx. destruct Hcf as [Hr0 Hf0 Hold]. now destruct (Hold x Hx) as (Q1&Q2&Q3&Q4&Q5&Q6&Q7). }
  assert (Hno : forall x, parent_of F x <> Some m).
  { intros x Hx. apply (parent_child F W) in Hx. destruct Hiso as (_ & _ & Hnil). now rewrite Hnil in Hx. }
  destruct (deep_bounds g t (enough D) D1 F m) as (D2 & F2 & E2 & I2 & G2 & Hb2 & B2).
  - pose proof (tree_size D F t I Ht Hn). unfold enough. lia.
  - easy.
  - apply Hno.
  - easy.
  - intros x Hx. apply Hlt in Hx. unfold m in *. lia.
  - lia.
  - intros Hx. apply Hlt in Hx. unfold m in *. lia.
  - intros x Hx. assert (Hx' : In x (preorder t)) by (destruct t; now right).
    apply (copyable_grown [t_node t] D D1 F); try easy; auto.
  - intros x Hx. apply Hg in Hx. unfold exists_node in Hx. unfold m in *. split; [lia|]. split; [lia|apply Hno].
  - assert (E' : copy_node_deep (t_node t) D = Ok (m, D2)) by (unfold copy_node_deep; rewrite E1; cbn [bind fst snd]; now rewrite E2).
    assert (r = (m, D2)) as -> by congruence.
    assert (HK : copy_hit g (flat_map preorder (t_kids t)) D1 <-> copy_hit g (flat_map preorder (t_kids t)) D).
    { assert (Z : forall x, In x (flat_map preorder (t_kids t)) -> copy_stop g D1 x <-> copy_stop g D x).
      { intros x Hx. assert (Hx' : In x (preorder t)) by (destruct t; now right). destruct (G1 x (Hlt x Hx')) as (T1 & A1).
        unfold copy_stop. now rewrite T1, A1. }
      split; intros (x & Hx & Hs); exists x; (split; [exact Hx|]); now apply (Z x Hx). }
    assert (Hpre : preorder t = t_node t :: flat_map preorder (t_kids t)) by (destruct t; easy).
    assert (B : bounds (copy_blocked g (preorder t) D) (copy_blocked g (preorder t) D) (m, D2) (g_copy_node_deep g (t_node t) D)).
    { unfold g_copy_node_deep.
      apply (bounds_weaken _ _ _ _ _ _ (bounds_bind _ _ _ _ _ (m, D2) _ (fun r => D' <- g_make_deep_copy (enough D) g (fst r) (t_node t) (snd r) ;; Ok (fst r, D'))
        B1 (bounds_bind _ _ False False _ (m, D2) _ (fun D' => Ok (m, D')) B2 (bounds_ok False False (m, D2) (fun x => x))))); rewrite HK, ?Hpre.
      - intros (x & [<-|Hx] & Hs); [now left|]. right. left. now exists x.
      - assert (Hself : copy_stop g D (t_node t) -> copy_blocked g (t_node t :: flat_map preorder (t_kids t)) D).
        { intros H. exists (t_node t). split; [now left|exact H]. }
        intros [H|[[(x & Hx & H)|(x & Hx & H)]|[]]]; [now apply Hself| |].
        + exists x. split; [exact Hx|now left].
        + exists x. split; [now right|exact H]. }
    destruct B as [(E3 & X)|(E3 & X)]; split; tauto.
Qed.

(* ---- drop *)
Theorem drop_under g D : reachable D ->
  (forall q, drop_document D = Panic q -> exists q', g_drop_document g D = Panic q') /\
  (forall D', drop_document D = Ok D' ->
     (drop_blocked_by g D D' -> g_drop_document g D = Panic PBorrow) /\ (~ drop_blocked_by g D D' -> g_drop_document g D = Ok D')).
Proof.
  intros R. destruct (reachable_inv D R) as (F & I & _). destruct (drop_bounds g (slab_iter (store D)) D F (iv_rep D F I)) as (P & Q).
  unfold drop_document, g_drop_document. split.
  - intros q E. exists PBorrow. apply P. destruct (drop_loop_exact (slab_iter (store D)) D F (iv_rep D F I)) as [(X & _)|(D' & X & _)]; congruence.
  - intros D' E. specialize (Q D' E).
    assert (H : drop_blocked_by g D D' <-> drop_hit g (slab_iter (store D)) D D').
    { unfold drop_blocked_by, drop_hit.
      pose proof (stored_iter D F I) as K.
      split; intros (x & Hx & [H|H]); exists x; (split; [exact Hx|]); [left; now apply K|now right|left; now apply K|now right]. }
    rewrite H. destruct Q as [(E3 & X)|(E3 & X)]; split; tauto.
Qed.
