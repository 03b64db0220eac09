(* The calls of Document with no guard are those of Doc.v. *)
From Coq Require Import List Bool PeanoNat NArith Lia.
From Verif Require Import Base Ids Links Tree Iter ForestSpec TreeSpec Data Attrs Slab NodeApi AttrSpec Doc History HistoryProofs WorldProofs
  MixProofs Guards GuardSpec GuardProofs GuardDoc GuardDocSpec GuardDocApi.
Import ListNotations.

Lemma next_free L it : g_children_next no_guards L it = Ok (children_next L it).
Proof.
  unfold g_children_next, g_children_finished, children_next, children_finished, reading. cbn.
  destruct (c_back it); cbn; [destruct (onid_eqb _ _)|]; try reflexivity; destruct (c_next it); reflexivity.
Qed.
Lemma remove_all_free self names : forall D, g_remove_all no_guards self names D = remove_all self names D.
Proof.
  induction names as [|x t IH]; intros D; [reflexivity|]. cbn [g_remove_all remove_all]. rewrite remove_free.
  destruct (remove_attribute self x D); [apply IH|reflexivity|reflexivity].
Qed.
Lemma unlink_free node users : forall D, g_unlink_users no_guards node users D = unlink_users node users D.
Proof.
  induction users as [|u t IH]; intros D; [reflexivity|]. cbn [g_unlink_users unlink_users]. rewrite no_reading, remove_all_free.
  destruct (remove_all _ _ _); [apply IH|reflexivity|reflexivity].
Qed.
Lemma links_free node D : g_remove_links no_guards node D = remove_links node D.
Proof.
  unfold g_remove_links, remove_links. rewrite no_reading, remove_all_free. destruct (remove_all _ _ _); [|reflexivity|reflexivity].
  cbn [bind]. now rewrite no_reading, unlink_free.
Qed.
Lemma finish_free node D : g_remove_finish no_guards node D = remove_finish node D.
Proof. unfold g_remove_finish, remove_finish, g_detach. cbn [all_guards no_guards g_ref g_mut app]. now destruct (detach [] node (lk D)). Qed.
Lemma for_free {A} getL (b1 b2 : nid -> A -> res A) : (forall c s, b1 c s = b2 c s) ->
  forall fuel it s, g_for_children no_guards getL fuel b1 it s = for_children getL fuel b2 it s.
Proof.
  intros H. induction fuel as [|fuel IH]; intros it s; [reflexivity|]. cbn [g_for_children for_children]. rewrite next_free. cbn [bind].
  destruct (children_next (getL s) it) as [[c|] it']; [|reflexivity]. rewrite H. destruct (b2 c s); [apply IH|reflexivity|reflexivity].
Qed.
Lemma rec_free fuel : forall node D, g_remove_rec fuel no_guards node D = remove_rec fuel node D.
Proof.
  induction fuel as [|fuel IH]; intros node D; [reflexivity|]. cbn [g_remove_rec remove_rec]. rewrite links_free.
  destruct (remove_links node D) as [D1| |]; cbn [bind]; [|reflexivity|reflexivity]. unfold g_children. rewrite no_reading. cbn [bind].
  rewrite (for_free lk _ (remove_rec fuel) IH). destruct (for_children _ _ _ _ _) as [D2| |]; cbn [bind]; [apply finish_free|reflexivity|reflexivity].
Qed.
Lemma drain_loop_free f fuel : forall node s, g_drain_loop fuel no_guards f node s = drain_loop fuel f node s.
Proof.
  induction fuel as [|fuel IH]; intros node s; [reflexivity|]. cbn [g_drain_loop drain_loop]. destruct node as [n|]; [|reflexivity].
  destruct (f (fst s) n).
  - rewrite no_reading. unfold g_remove_node, remove_node. rewrite rec_free. destruct (remove_rec _ n (fst s)); cbn [bind]; [apply IH|reflexivity|reflexivity].
  - rewrite !no_reading, IH. destruct (if has_children (lk (fst s)) n then _ else _); cbn [bind]; [rewrite no_reading; apply IH|reflexivity|reflexivity].
Qed.
Lemma drop_free l : forall D, g_drop_loop no_guards l D = drop_loop l D.
Proof.
  induction l as [|n t IH]; intros D; [reflexivity|]. cbn [g_drop_loop drop_loop]. rewrite no_writing. unfold g_detach.
  cbn [all_guards no_guards g_ref g_mut app]. destruct (detach [] n _); cbn [bind]; [apply IH|reflexivity|reflexivity].
Qed.

Lemma deep_free fuel : forall p n D, reachable D -> p < fresh D -> n < fresh D ->
  g_make_deep_copy fuel no_guards p n D = make_deep_copy fuel p n D.
Proof.
  induction fuel as [|fuel IH]; intros p n D R Hp Hn; [reflexivity|]. cbn [make_deep_copy g_make_deep_copy].
  unfold g_children. rewrite no_reading. cbn [bind].
  set (body := fun child D =>
           r <- copy_node child D ;;
           let new_node := fst r in
           L <- append [] p new_node (lk (snd r)) ;;
           let D := with_lk L (snd r) in
           if has_children (lk D) child then make_deep_copy fuel new_node child D else Ok D).
  set (gbody := fun child D =>
           r <- g_copy_node no_guards child D ;;
           let new_node := fst r in
           D <- g_append no_guards p new_node (snd r) ;;
           reading no_guards child (if has_children (lk D) child then g_make_deep_copy fuel no_guards new_node child D else Ok D)).
  assert (Hbody : forall c D, reachable D -> p < fresh D -> c < fresh D ->
    gbody c D = body c D /\ forall D', body c D = Ok D' -> reachable D' /\ fresh D <= fresh D').
  { clear D R Hp Hn. intros c D R Hp Hc. unfold body, gbody. rewrite (copy_node_free c D R Hc).
    destruct (copy_node c D) as [r|q|] eqn:E; cbn [bind]; [|now split|now split].
    destruct (copy_node_keeps c D r E) as (X & _ & Y).
    assert (R1 : reachable (snd r)).
    { apply (reach_step D (OCopyNode c)); [easy| |cbn; now rewrite E]. split; [|exact Logic.I]. intros x [<-|[]]. exact Hc. }
    unfold g_append. cbn [all_guards no_guards g_ref g_mut app].
    destruct (append [] p (fst r) (lk (snd r))) as [L|q|] eqn:El; cbn [bind]; [|now split|now split].
    assert (R2 : reachable (with_lk L (snd r))).
    { apply (reach_step (snd r) (OAppend p (fst r))); [easy| |cbn; unfold on_links; now rewrite El].
      split; [|exact Logic.I]. intros x [<-|[<-|[]]]; unfold exists_node; lia. }
    rewrite no_reading. destruct (has_children (lk (with_lk L (snd r))) c).
    - split; [apply IH; [easy|cbn [fresh with_lk]; lia|cbn [fresh with_lk]; lia]|]. intros D' E'.
      destruct (weaker_deep no_guards 0 (fun x H => False_ind _ (no_held x H)) fuel (fst r) c (with_lk L (snd r)) R2) as (_ & Z);
        cbn [fresh with_lk] in *; try lia. destruct (Z D' E') as (Z1 & Z2). split; [easy|lia].
    - split; [reflexivity|]. intros D' [= <-]. cbn [fresh with_lk]. split; [easy|lia]. }
  assert (Hloop : forall fuel' it D, reachable D -> p < fresh D -> olt (fresh D) (c_next it) ->
    g_for_children no_guards lk fuel' gbody it D = for_children lk fuel' body it D).
  { clear D R Hp Hn. induction fuel' as [|fuel' IHf]; intros it D R Hp Hit; [reflexivity|].
    cbn [for_children g_for_children]. rewrite next_free. cbn [bind]. pose proof (children_next_old (lk D) it) as Ho.
    assert (Hb : forall n, olt (fresh D) (l_next (lk D) n)) by (intros y; apply (bd_links D (reachable_bounded D R) y)).
    destruct (children_next (lk D) it) as [[c|] it']; [|reflexivity].
    destruct (Ho c it' (fresh D) Hb Hit eq_refl) as (Hc & Hit'). destruct (Hbody c D R Hp Hc) as (W1 & W2). rewrite W1.
    destruct (body c D) as [D1|q|]; cbn [bind]; [|reflexivity|reflexivity]. destruct (W2 D1 eq_refl) as (R1 & Hf1).
    apply IHf; [easy|lia|]. intros y Hy. specialize (Hit' y Hy). lia. }
  apply Hloop; [easy|easy|]. apply (bd_links D (reachable_bounded D R) n).
Qed.

Theorem doc_free D n : reachable D -> exists_node D n ->
  g_remove_node no_guards n D = remove_node n D /\
  (forall f, g_drain no_guards n f D = drain n f D) /\
  g_copy_node_deep no_guards n D = copy_node_deep n D /\
  g_drop_document no_guards D = drop_document D.
Proof.
  intros R Hn. split; [apply rec_free|]. split; [intros f; apply drain_loop_free|]. split; [|apply drop_free].
  unfold g_copy_node_deep, copy_node_deep. rewrite (copy_node_free n D R Hn).
  destruct (copy_node n D) as [r|q|] eqn:E; cbn [bind]; [|reflexivity|reflexivity].
  destruct (copy_node_keeps n D r E) as (X & _ & Y). unfold exists_node in Hn. rewrite deep_free; [reflexivity| |lia|lia].
  apply (reach_step D (OCopyNode n)); [easy| |cbn; now rewrite E]. split; [|exact Logic.I]. intros x [<-|[]]. exact Hn.
Qed.
