From Coq Require Import List Bool PeanoNat NArith Lia.
From Verif Require Import Base Ids Links Tree Iter ForestSpec ListFacts TreeProofs ForestFacts IterSpec IterProofs
  PruneFacts Data Attrs Slab SlabProofs NodeApi Doc AttrFacts LinkProofs DocSpec RemoveProofs History InvProofs HistoryProofs
  DrainProofs CopyProofs Loops RemoveExact TreeSpec TreeApi ApiProofs DocApi LoopSpec LoopExact
  AttrSpec World WorldSpec WorldInv WorldProofs MixProofs DrainEdit DrainEditSpec.
Import ListNotations.

(* ---- edits *)
Lemma edits_trans ok D1 D2 D3 : edits ok D1 D2 -> edits ok D2 D3 -> edits ok D1 D3.
Proof. intros H1 H2. induction H2 as [|D3 o D4 _ IH]; [easy|]. now apply (edits_call ok D1 D3 o). Qed.
Lemma edits_weaken (p q : op -> dom -> Prop) D D' : (forall o D, p o D -> q o D) -> edits p D D' -> edits q D D'.
Proof. intros H. induction 1 as [|D1 o D2 _ IH]; [apply edits_none|]. apply (edits_call q D D1 o); auto. Qed.

Lemma edits_reachable ok D D' : edits ok D D' -> reachable D -> reachable D' /\ fresh D <= fresh D'.
Proof.
  intros H R. induction H as [|D1 o D2 _ (R1 & L1) _ Hl E]; [now split|]. split; [now apply (reach_step D1 o)|].
  destruct (reachable_inv D1 R1) as (F & I & _).
  destruct (step_inv False o D1 D2) as (_ & Hf & _); [now exists F|easy|easy|easy|]. lia.
Qed.
Lemma edits_tame D D' : edits tame_edit D D' -> reachable_tame D -> reachable_tame D'.
Proof.
  intros H R. induction H as [|D1 o D2 _ IH (_ & Hc) Hl E]; [easy|]. now apply (tame_step D1 o).
Qed.

(* Calls that do not move nodes leave the tree alone. *)
Lemma data_keeps o D D' : data_call o -> step o D = Ok D' -> keeps D D'.
Proof.
  destruct o; cbn [data_call node_call]; try easy; intros _ H; cbn [step] in H.
  - unfold set_text in H. destruct (is_element D n); [easy|]. now injection H as <-.
  - now injection H as <-.
  - unfold set_id in H. destruct (is_element D n); [|easy]. now injection H as <-.
  - unfold set_tag_name in H. destruct (negb _); [easy|]. destruct (empty_tag _); [easy|]. now injection H as <-.
  - now apply set_attribute_keeps in H.
  - ok_bind H r E. injection H as <-. now apply set_checked_keeps in E.
  - unfold set_attribute_if_none in H. destruct (negb _); [now apply set_attribute_keeps in H|now injection H as <-].
  - now apply remove_attribute_keeps in H.
  - injection H as <-. now split.
Qed.
Lemma data_edits_keep D D' : edits data_edit D D' -> keeps D D'.
Proof.
  induction 1 as [|D1 o D2 _ IH Ho _ E]; [easy|]. apply (keeps_trans D D1); [easy|]. now apply (data_keeps o).
Qed.

(* ---- whatever the closure does *)
Lemma first_exists D n : reachable D -> forall m, first_child (lk D) n = Some m -> exists_node D m.
Proof. intros R m H. destruct (bd_links D (reachable_bounded D R) n) as (_ & _ & Hf & _). exact (Hf m H). Qed.
Lemma next_exists D n : reachable D -> forall m, next_sibling (lk D) n = Some m -> exists_node D m.
Proof. intros R m H. destruct (bd_links D (reachable_bounded D R) n) as (_ & _ & _ & _ & _ & Hf). exact (Hf m H). Qed.

Lemma removal D n D' : reachable D -> exists_node D n -> remove_node n D = Ok D' -> reachable D' /\ fresh D <= fresh D'.
Proof.
  intros R Hn E.
  assert (Hl : legal (ORemoveNode n) D) by (split; [intros m [<-|[]]; exact Hn|exact Logic.I]).
  split; [apply (reach_step D (ORemoveNode n)); [exact R|exact Hl|exact E]|].
  destruct (reachable_inv D R) as (F & I & _).
  destruct (step_inv False (ORemoveNode n) D D') as (_ & Hf & _); [now exists F|exact Hl|easy|exact E|]. exact Hf.
Qed.
Lemma tame_removal D n D' : reachable_tame D -> exists_node D n -> remove_node n D = Ok D' -> reachable_tame D'.
Proof.
  intros R Hn E. apply (tame_step D (ORemoveNode n)); [exact R| |exact Logic.I|exact E].
  split; [intros m [<-|[]]; exact Hn|exact Logic.I].
Qed.

Lemma drain_safe (ok : op -> dom -> Prop) (good : dom -> Prop) f : only ok f ->
  (forall D, good D -> reachable D) ->
  (forall D D', good D -> edits ok D D' -> good D') ->
  (forall D n D', good D -> exists_node D n -> remove_node n D = Ok D' -> good D') ->
  forall fuel o D k r, good D -> (forall n, o = Some n -> exists_node D n) ->
  e_drain_loop fuel f o (D, k) = Ok r -> good (fst r) /\ fresh D <= fresh (fst r).
Proof.
  intros Ho Hr He Hm. induction fuel as [|fuel IH]; intros o D k r G Hn E; [discriminate|].
  cbn [e_drain_loop fst snd] in E. destruct o as [n|]; [|injection E as <-; now split].
  specialize (Hn n eq_refl). destruct (f D n) as [[b D1]| |] eqn:Ef; try discriminate. cbn [bind fst snd] in E.
  pose proof (Ho D n b D1 Ef) as Hed. pose proof (He D D1 G Hed) as G1.
  destruct (edits_reachable ok D D1 Hed (Hr D G)) as (R1 & L1).
  assert (Hn1 : exists_node D1 n) by (unfold exists_node in *; lia).
  destruct b.
  - destruct (remove_node n D1) as [D2| |] eqn:Er; try discriminate. cbn [bind] in E.
    destruct (removal D1 n D2 R1 Hn1 Er) as (R2 & L2).
    assert (Hx : forall m, next_sibling (lk D1) n = Some m -> exists_node D2 m).
    { intros m Hx. pose proof (next_exists D1 n R1 m Hx). unfold exists_node in *. lia. }
    destruct (IH (next_sibling (lk D1) n) D2 (S k) r (Hm D1 n D2 G1 Hn1 Er) Hx E) as (G3 & L3). split; [exact G3|lia].
  - assert (H2 : forall s, (if has_children (lk D1) n then e_drain_loop fuel f (first_child (lk D1) n) (D1, k) else Ok (D1, k)) = Ok s ->
      good (fst s) /\ fresh D1 <= fresh (fst s)).
    { intros s. destruct (has_children (lk D1) n); [|intros [= <-]; now split]. intros E2.
      exact (IH (first_child (lk D1) n) D1 k s G1 (first_exists D1 n R1) E2). }
    destruct (if has_children (lk D1) n then e_drain_loop fuel f (first_child (lk D1) n) (D1, k) else Ok (D1, k))
      as [[D2 k2]| |]; try discriminate. cbn [bind fst] in E. destruct (H2 _ eq_refl) as (G2 & L2). cbn [fst] in G2, L2.
    destruct (IH (next_sibling (lk D2) n) D2 k2 r G2 (next_exists D2 n (Hr D2 G2)) E) as (G3 & L3). split; [exact G3|lia].
Qed.

Theorem drain_reachable fuel f D n r : reachable D -> only any_edit f -> e_drain fuel n f D = Ok r -> reachable (fst r).
Proof.
  intros R Ho E. apply (drain_safe any_edit reachable f Ho) with (fuel := fuel) (o := first_child (lk D) n) (D := D) (k := 0).
  - easy.
  - intros D1 D2 R1 H. exact (proj1 (edits_reachable any_edit D1 D2 H R1)).
  - intros D1 m D2 R1 Hm H. exact (proj1 (removal D1 m D2 R1 Hm H)).
  - exact R.
  - exact (first_exists D n R).
  - exact E.
Qed.
Theorem drain_tame fuel f D n r : reachable_tame D -> only tame_edit f -> e_drain fuel n f D = Ok r -> reachable_tame (fst r).
Proof.
  intros R Ho E. apply (drain_safe tame_edit reachable_tame f Ho) with (fuel := fuel) (o := first_child (lk D) n) (D := D) (k := 0).
  - exact tame_reachable.
  - intros D1 D2 R1 H. exact (edits_tame D1 D2 H R1).
  - exact tame_removal.
  - exact R.
  - exact (first_exists D n (tame_reachable D R)).
  - exact E.
Qed.

(* ---- closures that do not move nodes *)
Lemma during_trans D S1 D1 S2 D2 : during D S1 D1 -> during D1 S2 D2 -> during D (S1 ++ S2) D2.
Proof.
  intros H1 H2. induction H2 as [|S2 D2 D3 _ IH He|S2 R D2 D3 _ IH Hr].
  - now rewrite app_nil_r.
  - now apply (during_edit D _ D2).
  - rewrite app_assoc. now apply (during_remove D _ R D2).
Qed.
Lemma said_later f D D1 S1 S2 x b : during D S1 D1 -> ~ In x S1 -> said f D1 S2 x b -> said f D (S1 ++ S2) x b.
Proof.
  intros R Hx (S3 & D2 & D3 & R2 & Hs & Hn & E). exists (S1 ++ S3), D2, D3. split; [now apply (during_trans D S1 D1)|]. split.
  - intros y Hy. apply in_app_iff in Hy. apply in_app_iff. destruct Hy as [Hy|Hy]; [now left|right; now apply Hs].
  - split; [rewrite in_app_iff; tauto|easy].
Qed.
Lemma said_more f D S S' x b : (forall y, In y S -> In y S') -> said f D S x b -> said f D S' x b.
Proof. intros H (S1 & D1 & D2 & R & Hs & Hr). exists S1, D1, D2. split; [easy|]. split; [|easy]. intros y Hy. now apply H, Hs. Qed.
Lemma during_fresh D S D' : during D S D' -> fresh D' = fresh D.
Proof.
  induction 1 as [|S D1 D2 _ IH He|S R D1 D2 _ IH Hr]; [easy| |].
  - rewrite (proj2 (data_edits_keep D1 D2 He)). exact IH.
  - rewrite (rv_fresh _ _ _ Hr). exact IH.
Qed.
Lemma e_drain_mono f : forall fuel fuel' n s, fuel <= fuel' -> e_drain_loop fuel f n s <> Diverge ->
  e_drain_loop fuel' f n s = e_drain_loop fuel f n s.
Proof.
  induction fuel as [|fuel IH]; intros fuel' n s Hf H; [easy|]. destruct fuel' as [|fuel']; [lia|].
  cbn [e_drain_loop] in *. destruct n as [n|]; [|easy]. destruct (f (fst s) n) as [[b D]| |]; cbn [bind fst snd] in *; try easy.
  destruct b.
  - destruct (remove_node n D); cbn [bind] in *; [|easy|easy]. apply IH; [lia|easy].
  - destruct (has_children (lk D) n); cbn [bind] in *; [|apply IH; [lia|easy]].
    destruct (e_drain_loop fuel f (first_child (lk D) n) (D, snd s)) as [s1| |] eqn:E; cbn [bind] in *; [| |easy].
    + rewrite (IH fuel' _ (D, snd s)), E; [|lia|now rewrite E]. cbn [bind]. apply IH; [lia|easy].
    + rewrite (IH fuel' _ (D, snd s)), E; [easy|lia|now rewrite E].
Qed.
Lemma e_drain_loop_spec f : only data_edit f -> total f -> forall fuel ts D F k,
  length (flat_map preorder ts) < fuel ->
  reachable D -> InvF D F -> Forall (tree_at F) ts -> at_head F ts -> NoDup (flat_map preorder ts) ->
  (forall x, In x (flat_map preorder ts) -> x < fresh D) ->
  exists D' ms, e_drain_loop fuel f (hd_error (map t_node ts)) (D, k) = Ok (D', k + length ms) /\
    reachable D' /\ InvF D' (f_prune (flat_map preorder ms) F) /\ drained_while f D D' ts ms.
Proof.
  intros Ho Hto. induction fuel as [|fuel IH]; intros ts D F k Hfuel Rd I Hall Hhd Hnd Hlt; [lia|].
  destruct ts as [|t ts].
  { cbn. exists D, []. rewrite Nat.add_0_r. split; [easy|]. split; [exact Rd|]. split.
    - eapply InvF_ext; [|exact I]. apply forest_eq_sym, f_prune_nil.
    - split; try easy. apply during_start. }
  pose proof (r_wf _ _ (iv_rep D F I)) as W.
  cbn [flat_map] in Hnd, Hlt, Hfuel. destruct Hhd as (pre & Hsib).
  inversion Hall as [|? ? Ht Hts]; subst.
  assert (Hdisj : forall x, In x (preorder t) -> ~ In x (flat_map preorder ts))
    by (intros x; now apply NoDup_app_disj).
  assert (Hndts : NoDup (flat_map preorder ts)) by now apply NoDup_app_r in Hnd.
  assert (Hself : In (t_node t) (preorder t)) by apply preorder_self.
  pose proof (wf_nodup F W (t_node t)) as Hns. rewrite Hsib in Hns. cbn [map] in Hsib, Hns.
  assert (Hafter : forall S, (forall x, In x S -> In x (preorder t)) ->
    Forall (tree_at (f_prune S F)) ts /\
    (at_head (f_prune S F) ts) /\
    (~ In (t_node t) S -> siblings_of (f_prune S F) (t_node t) = without S pre ++ t_node t :: map t_node ts)).
  { intros S HS.
    assert (Hout : forall x, In x (map t_node ts) -> ~ In x S).
    { intros x Hx Hin. apply HS in Hin. apply (Hdisj x Hin). apply in_map_iff in Hx. destruct Hx as (c & <- & Hc).
      apply in_flat_map. exists c. split; [easy|apply preorder_self]. }
    split; [|split].
    - rewrite Forall_forall in Hts |- *. intros c Hc. apply tree_at_prune; [now apply Hts|].
      intros x Hx Hin. apply HS in Hin. apply (Hdisj x Hin). apply in_flat_map. now exists c.
    - pose proof (siblings_hd F (t_node t) ts pre _ W Hsib eq_refl) as Hh. destruct ts as [|r ts']; [easy|].
      exists (without S (pre ++ [t_node t])). cbn [f_prune siblings_of].
      replace (mem (t_node r) S) with false.
      2:{ symmetry. apply mem_not_In, Hout. now left. }
      rewrite Hh. unfold without at 1. rewrite filter_app. f_equal.
      change (filter (fun x => negb (mem x S))) with (without S). now apply without_none.
    - intros Hn. cbn [f_prune siblings_of]. replace (mem (t_node t) S) with false by (symmetry; now apply mem_not_In).
      rewrite Hsib. unfold without at 1. rewrite filter_app. f_equal.
      change (filter (fun x => negb (mem x S))) with (without S). apply without_none.
      intros x [<-|Hx]; [easy|]. now apply Hout. }
  cbn [map hd_error e_drain_loop fst snd].
  assert (Hn : exists_node D (t_node t)) by (apply Hlt, in_app_iff; now left).
  destruct (Hto D (t_node t) Rd Hn) as ([b D0] & Ef). rewrite Ef. cbn [bind fst snd].
  pose proof (Ho D (t_node t) b D0 Ef) as Hed. destruct (edits_reachable _ D D0 Hed Rd) as (R0 & _).
  destruct (data_edits_keep D D0 Hed) as (K1 & K2).
  assert (I0 : InvF D0 F).
  { apply shows_inv; [exact R0|]. rewrite K1. apply shows_Rep, I. }
  assert (Hdur : during D [] D0) by (apply (during_edit D [] D); [apply during_start|exact Hed]).
  assert (Htop : forall S, said f D S (t_node t) b).
  { intros S. exists [], D, D0. split; [apply during_start|]. split; [easy|]. split; [easy|exact Ef]. }
  assert (Hlt0 : forall x, In x (preorder t ++ flat_map preorder ts) -> x < fresh D0) by (intros x; rewrite K2; apply Hlt).
  clear I. destruct b.
  - (* t is removed *)
    assert (Hnx : next_sibling (lk D0) (t_node t) = hd_error (map t_node ts)).
    { unfold next_sibling. rewrite (r_next _ _ (iv_rep D0 F I0)), Hsib. now apply succ_in_at. }
    rewrite Hnx.
    destruct (remove_node_spec D0 F t I0 Ht) as (D1 & Er & I1 & Hr1).
    { apply Hlt0, in_app_iff. now left. }
    rewrite Er. cbn [bind]. destruct (Hafter (preorder t)) as (Hts1 & Hhd1 & _); [easy|].
    assert (Hn0 : exists_node D0 (t_node t)) by (apply Hlt0, in_app_iff; now left).
    destruct (removal D0 (t_node t) D1 R0 Hn0 Er) as (R1 & _).
    destruct (IH ts D1 (f_prune (preorder t) F) (S k)) as (D2 & ms & E2 & R2 & I2 & [B1 B2 B3 B4]); try easy.
    + rewrite app_length in Hfuel. destruct t. cbn in Hfuel. lia.
    + intros x Hx. rewrite (rv_fresh _ _ _ Hr1). apply Hlt0, in_app_iff. now right.
    + rewrite E2. exists D2, (t :: ms). cbn [length flat_map]. split; [do 2 f_equal; lia|]. split; [exact R2|]. split.
      { eapply InvF_ext; [|exact I2]. apply f_prune_prune. }
      assert (Hd1 : during D (preorder t) D1) by exact (during_remove D [] (preorder t) D0 D1 Hdur Hr1).
      assert (Hsub : forall x, In x (flat_map preorder ms) -> ~ In x (preorder t)).
      { intros x Hx Hin. apply (Hdisj x Hin). now apply (subs_pre ts ms B1). }
      split.
      * intros m [<-|Hm]; apply in_app_iff; [left; apply subtrees_self|right; now apply B1].
      * intros m [<-|Hm]; [apply Htop|].
        apply (said_later f D D1); [easy| |now apply B2]. apply Hsub. apply in_flat_map. exists m.
        split; [easy|apply preorder_self].
      * intros x Hx Hnx'. cbn [flat_map] in *. rewrite in_app_iff in Hx, Hnx'.
        apply (said_later f D D1); [easy|tauto|]. apply B3; tauto.
      * cbn [flat_map]. now apply (during_trans D _ D1).
  - (* t is kept *)
    set (kids := t_kids t).
    assert (Hkids : children_of F (t_node t) = map t_node kids) by (apply tree_at_children; easy).
    assert (Hpre : preorder t = t_node t :: flat_map preorder kids) by (destruct t; easy).
    assert (Hkat : Forall (tree_at F) kids) by (destruct Ht; easy).
    assert (H1 : exists D1 ms, (if has_children (lk D0) (t_node t)
                  then e_drain_loop fuel f (first_child (lk D0) (t_node t)) (D0, k)
                  else Ok (D0, k)) = Ok (D1, k + length ms) /\
                 reachable D1 /\ InvF D1 (f_prune (flat_map preorder ms) F) /\ drained_while f D0 D1 kids ms).
    { unfold has_children, first_child. rewrite (r_first _ _ (iv_rep D0 F I0)), Hkids.
      destruct (hd_error (map t_node kids)) as [c|] eqn:Em.
      - rewrite <- Em. apply (IH kids D0 F k); try easy.
        + rewrite app_length, Hpre in Hfuel. cbn in Hfuel. lia.
        + unfold at_head. destruct kids as [|c0 kids']; [easy|]. exists []. cbn [app]. rewrite <- Hkids.
          apply child_siblings; [easy|]. rewrite Hkids. now left.
        + pose proof (preorder_nodup F t W Ht) as Hn'. rewrite Hpre in Hn'. now inversion Hn'.
        + intros x Hx. apply Hlt0, in_app_iff. left. rewrite Hpre. now right.
      - assert (Ek : kids = []) by (destruct kids; [easy|discriminate]).
        rewrite Ek. cbn. exists D0, []. rewrite Nat.add_0_r. split; [easy|]. split; [exact R0|]. split.
        + eapply InvF_ext; [|exact I0]. apply forest_eq_sym, f_prune_nil.
        + split; try easy. apply during_start. }
    destruct H1 as (D1 & ms1 & -> & R1 & I1 & [A1 A2 A3 A4]). cbn [bind fst].
    set (S1 := flat_map preorder ms1) in *.
    assert (HS1 : forall x, In x S1 -> In x (flat_map preorder kids)) by (intros x; now apply (subs_pre kids ms1)).
    assert (Hnot : ~ In (t_node t) S1).
    { intros H. apply HS1 in H. pose proof (preorder_nodup F t W Ht) as Hn'. rewrite Hpre in Hn'. now inversion Hn'. }
    destruct (Hafter S1) as (Hts1 & Hhd1 & Hsib1).
    { intros x Hx. rewrite Hpre. right. now apply HS1. }
    assert (Hnx : next_sibling (lk D1) (t_node t) = hd_error (map t_node ts)).
    { unfold next_sibling. rewrite (r_next _ _ (iv_rep D1 _ I1)), (Hsib1 Hnot).
      apply succ_in_at. rewrite <- (Hsib1 Hnot). apply (wf_nodup _ (r_wf _ _ (iv_rep D1 _ I1))). }
    rewrite Hnx.
    assert (Hd1 : during D S1 D1) by exact (during_trans D [] D0 S1 D1 Hdur A4).
    assert (Hup : forall x b, said f D0 S1 x b -> said f D S1 x b).
    { intros x b Hx. exact (said_later f D D0 [] S1 x b Hdur (fun h => h) Hx). }
    destruct (IH ts D1 (f_prune S1 F) (k + length ms1)) as (D2 & ms2 & E2 & R2 & I2 & [B1 B2 B3 B4]); try easy.
    + rewrite app_length in Hfuel. destruct t. cbn in Hfuel. lia.
    + intros x Hx. rewrite (during_fresh D0 S1 D1 A4). apply Hlt0, in_app_iff. now right.
    + rewrite E2. exists D2, (ms1 ++ ms2). rewrite flat_map_app, app_length.
      split; [do 2 f_equal; lia|]. split; [exact R2|]. split.
      { eapply InvF_ext; [|exact I2]. apply f_prune_prune. }
      assert (Hsub : forall x, In x S1 -> In x (preorder t)) by (intros x Hx; rewrite Hpre; right; now apply HS1).
      assert (Hs2 : forall x, In x (flat_map preorder ms2) -> ~ In x S1).
      { intros x Hx Hin. apply (Hdisj x); [now apply Hsub|]. now apply (subs_pre ts ms2 B1). }
      split.
      * intros m Hm. apply in_app_iff in Hm. cbn [flat_map]. apply in_app_iff. destruct Hm as [Hm|Hm]; [left|right; now apply B1].
        apply A1 in Hm. destruct t as [n ks]. now right.
      * rewrite flat_map_app. intros m Hm. apply in_app_iff in Hm. destruct Hm as [Hm|Hm].
        -- eapply said_more; [|apply Hup, A2, Hm]. intros y Hy. apply in_app_iff. now left.
        -- apply (said_later f D D1); [easy| |now apply B2]. apply Hs2. apply in_flat_map. exists m.
           split; [easy|apply preorder_self].
      * rewrite flat_map_app. intros x Hx Hnx'. cbn [flat_map] in Hx. rewrite in_app_iff in Hx, Hnx'.
        destruct Hx as [Hx|Hx].
        -- rewrite Hpre in Hx. destruct Hx as [<-|Hx]; [apply Htop|].
           eapply said_more; [|apply Hup, A3; [exact Hx|tauto]]. intros y Hy. apply in_app_iff. now left.
        -- apply (said_later f D D1); [easy|tauto|]. apply B3; tauto.
      * rewrite flat_map_app. now apply (during_trans D _ D1).
Qed.

Theorem e_drain_spec D F t f : reachable D -> shows (lk D) F -> tree_at F t -> exists_node D (t_node t) ->
  only data_edit f -> total f ->
  exists fuel D' F' ms, (forall more, e_drain (fuel + more) (t_node t) f D = Ok (D', length ms)) /\
    drained_while f D D' (t_kids t) ms /\ shows (lk D') F' /\ pruned (flat_map preorder ms) F F'.
Proof.
  intros R Hs Ht Hn Ho Hto. pose proof (shows_inv D F R Hs) as I. pose proof (r_wf _ _ (iv_rep D F I)) as W.
  pose proof (preorder_nodup F t W Ht) as Hnd.
  assert (Hpre : preorder t = t_node t :: flat_map preorder (t_kids t)) by (destruct t; easy).
  rewrite Hpre in Hnd. inversion Hnd as [|? ? Hnin Hnd']; subst.
  set (fuel := S (length (flat_map preorder (t_kids t)))).
  assert (G : forall k, exists D' ms, e_drain_loop (fuel + k) f (hd_error (map t_node (t_kids t))) (D, 0) = Ok (D', 0 + length ms) /\
    reachable D' /\ InvF D' (f_prune (flat_map preorder ms) F) /\ drained_while f D D' (t_kids t) ms).
  { intros k. apply (e_drain_loop_spec f Ho Hto); try easy.
    - unfold fuel. lia.
    - destruct Ht; easy.
    - now apply kids_head.
    - intros x Hx. apply (tree_nodes_exist D F t); try easy. rewrite Hpre. now right. }
  destruct (G 0) as (D' & ms & E & R' & I' & B). exists fuel, D', (f_prune (flat_map preorder ms) F), ms.
  split; [|split; [exact B|split; [apply shows_Rep, I'|apply prune_pruned]]].
  intros more. unfold e_drain, first_child. rewrite (r_first _ _ (iv_rep D F I)), (tree_at_children F t Ht).
  rewrite (e_drain_mono f (fuel + 0) (fuel + more)); [exact E|lia|]. rewrite E. discriminate.
Qed.
