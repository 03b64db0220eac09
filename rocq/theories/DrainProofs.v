(* remove_node and drain on the invariant. *)
From Coq Require Import List Bool PeanoNat NArith Lia.
From Verif Require Import Base Ids Links Tree Iter ForestSpec ListFacts TreeProofs ForestFacts IterSpec IterProofs
  PruneFacts Data Attrs Slab SlabProofs NodeApi Doc AttrFacts LinkProofs DocSpec RemoveProofs History InvProofs HistoryProofs.
Import ListNotations.

Lemma iso_prune S F m : isolated F m -> isolated (f_prune S F) m.
Proof.
  intros (Hp & Hs & Hc). unfold isolated. cbn. rewrite Hp, Hs, Hc. unfold without. cbn.
  destruct (mem m S) eqn:E; cbn; easy.
Qed.

Theorem remove_node_spec D F t : InvF D F -> tree_at F t -> t_node t < fresh D ->
  exists D', remove_node (t_node t) D = Ok D' /\ InvF D' (f_prune (preorder t) F) /\
    removed (preorder t) D D'.
Proof.
  intros I Ht Hn. unfold remove_node.
  destruct (remove_rec_spec t (enough D) D F) as (D' & E & (R & HL & HS) & Hrm).
  - split; [apply I|]. split; apply I.
  - easy.
  - unfold enough. pose proof (tree_size D F t I Ht Hn). lia.
  - exists D'. split; [easy|]. split; [|easy].
    destruct (remove_rec_inv False (enough D) (t_node t) D D') as ((F2 & I2 & _) & Hs1 & Hs2); [|exact E|].
    + exists F. easy.
    + assert (Hiso : forall m, fresh D' <= m -> isolated (f_prune (preorder t) F) m).
      { intros m Hm. apply iso_prune. rewrite Hs1 in Hm. now apply (iv_iso D F I). }
      destruct I2. split; assumption.
Qed.

Lemma flat_map_flat_map {A B C} (f : A -> list B) (g : B -> list C) l :
  flat_map g (flat_map f l) = flat_map (fun x => flat_map g (f x)) l.
Proof. induction l as [|x l IH]; cbn; [easy|]. now rewrite flat_map_app, IH. Qed.

Lemma maximal_sub p t x : In x (flat_map preorder (maximal p t)) -> In x (preorder t).
Proof.
  revert x. induction t as [n ts IH] using tree_ind'. intros x H. cbn [maximal] in H.
  destruct (p n).
  - cbn [flat_map] in H. now rewrite app_nil_r in H.
  - right. rewrite flat_map_flat_map in H. apply in_flat_map in H. destruct H as (c & Hc & Hx).
    apply in_flat_map. exists c. split; [easy|]. rewrite Forall_forall in IH. now apply IH.
Qed.
Lemma maximals_sub p ts x : In x (flat_map preorder (flat_map (maximal p) ts)) -> In x (flat_map preorder ts).
Proof.
  rewrite flat_map_flat_map, !in_flat_map. intros (c & Hc & Hx). exists c. split; [easy|].
  now apply (maximal_sub p).
Qed.

Lemma NoDup_app_disj {A} (l1 l2 : list A) x : NoDup (l1 ++ l2) -> In x l1 -> ~ In x l2.
Proof.
  intros H H1 H2. induction l1 as [|y l1 IH]; [easy|]. inversion H; subst. destruct H1 as [->|H1]; [|auto].
  apply H4, in_app_iff. now right.
Qed.

Lemma siblings_hd F n rest pre l : wf_forest F -> siblings_of F n = pre ++ n :: map t_node rest ->
  l = map t_node rest -> match rest with [] => True
  | r :: _ => siblings_of F (t_node r) = (pre ++ [n]) ++ map t_node rest end.
Proof.
  intros W E _. destruct rest as [|r rest]; [easy|].
  destruct (wf_share F W n (t_node r)) as (Es & _).
  - rewrite E. apply in_app_iff. right. right. now left.
  - rewrite Es, E, <- app_assoc. easy.
Qed.

Definition at_head (F : forest) (ts : list tree) : Prop :=
  match ts with
  | [] => True
  | t :: _ => exists pre, siblings_of F (t_node t) = pre ++ map t_node ts
  end.

Theorem drain_loop_spec f p : forall fuel ts D F k,
  length (flat_map preorder ts) < fuel ->
  InvF D F -> Forall (tree_at F) ts -> at_head F ts -> NoDup (flat_map preorder ts) ->
  (forall x, In x (flat_map preorder ts) -> x < fresh D) ->
  (forall S D', removed S D D' -> forall x, In x (flat_map preorder ts) -> ~ In x S -> f D' x = p x) ->
  let S := flat_map preorder (flat_map (maximal p) ts) in
  exists D', drain_loop fuel f (hd_error (map t_node ts)) (D, k) =
       Ok (D', k + length (flat_map (maximal p) ts)) /\
    InvF D' (f_prune S F) /\ removed S D D'.
Proof.
  induction fuel as [|fuel IH]; intros ts D F k Hfuel I Hall Hhd Hnd Hlt Hst; [lia|].
  destruct ts as [|t ts]; cbn zeta.
  { cbn. exists D. rewrite Nat.add_0_r. split; [easy|]. split; [|apply removed_nil].
    eapply InvF_ext; [|exact I]. apply forest_eq_sym, f_prune_nil. }
  pose proof (r_wf _ _ (iv_rep D F I)) as W.
  cbn [flat_map] in Hnd, Hlt, Hfuel. destruct Hhd as (pre & Hsib).
  inversion Hall as [|? ? Ht Hts]; subst.
  assert (Hdisj : forall x, In x (preorder t) -> ~ In x (flat_map preorder ts))
    by (intros x; now apply NoDup_app_disj).
  assert (Hndts : NoDup (flat_map preorder ts)) by now apply NoDup_app_r in Hnd.
  assert (Hself : In (t_node t) (preorder t)) by apply preorder_self.
  pose proof (wf_nodup F W (t_node t)) as Hns. rewrite Hsib in Hns. cbn [map] in Hsib, Hns.
  (* the trees after t survive the removal of any part of t *)
  assert (Hafter : forall S, (forall x, In x S -> In x (preorder t)) ->
    Forall (tree_at (f_prune S F)) ts /\
    (at_head (f_prune S F) ts) /\
    (~ In (t_node t) S -> siblings_of (f_prune S F) (t_node t) = without S pre ++ t_node t :: map t_node ts)).
  { intros S HS.
    assert (Hout : forall x, In x (map t_node ts) -> ~ In x S).
    { intros x Hx Hin. apply HS in Hin. apply (Hdisj x Hin). apply in_map_iff in Hx. destruct Hx as (c & <- & Hc).
      apply in_flat_map. exists c. split; [easy|apply preorder_self]. }
    split; [|split].
    - rewrite Forall_forall in Hts |- *. intros c Hc. apply tree_at_prune; [now apply Hts|].
      intros x Hx Hin. apply HS in Hin. apply (Hdisj x Hin). apply in_flat_map. now exists c.
    - pose proof (siblings_hd F (t_node t) ts pre _ W Hsib eq_refl) as Hh. destruct ts as [|r ts']; [easy|].
      exists (without S (pre ++ [t_node t])). cbn [f_prune siblings_of].
      replace (mem (t_node r) S) with false.
      2:{ symmetry. apply mem_not_In, Hout. now left. }
      rewrite Hh. unfold without at 1. rewrite filter_app. f_equal.
      change (filter (fun x => negb (mem x S))) with (without S). now apply without_none.
    - intros Hn. cbn [f_prune siblings_of]. replace (mem (t_node t) S) with false by (symmetry; now apply mem_not_In).
      rewrite Hsib. unfold without at 1. rewrite filter_app. f_equal.
      change (filter (fun x => negb (mem x S))) with (without S). apply without_none.
      intros x [<-|Hx]; [easy|]. now apply Hout. }
  cbn [map hd_error drain_loop fst snd].
  replace (f D (t_node t)) with (p (t_node t)).
  2:{ symmetry. apply (Hst [] D (removed_nil D)); [|easy]. cbn [flat_map]. apply in_app_iff. now left. }
  destruct (p (t_node t)) eqn:Ep.
  - (* t is removed *)
    assert (Hnx : next_sibling (lk D) (t_node t) = hd_error (map t_node ts)).
    { unfold next_sibling. rewrite (r_next _ _ (iv_rep D F I)), Hsib. now apply succ_in_at. }
    rewrite Hnx.
    destruct (remove_node_spec D F t I Ht) as (D1 & -> & I1 & Hr1).
    { apply Hlt, in_app_iff. now left. }
    cbn [bind]. destruct (Hafter (preorder t)) as (Hts1 & Hhd1 & _); [easy|].
    destruct (IH ts D1 (f_prune (preorder t) F) (S k)) as (D2 & E2 & I2 & Hr2); try easy.
    + rewrite app_length in Hfuel. destruct t. cbn in Hfuel. lia.
    + intros x Hx. rewrite (rv_fresh _ _ _ Hr1). apply Hlt, in_app_iff. now right.
    + intros S D' HS x Hx HxS.
      apply (Hst (preorder t ++ S) D'); [now apply (removed_app _ _ D D1)| |].
      * cbn [flat_map]. apply in_app_iff. now right.
      * rewrite in_app_iff. intros [H|H]; [|easy]. now apply (Hdisj x).
    + rewrite E2. destruct t as [n kids]. cbn [t_node] in Ep. cbn [flat_map maximal]. rewrite Ep. cbn [app length flat_map].
      exists D2. split; [do 2 f_equal; lia|]. split.
      * eapply InvF_ext; [|exact I2]. apply f_prune_prune.
      * now apply (removed_app _ _ D D1).
  - (* t is kept *)
    set (kids := t_kids t). set (S1 := flat_map preorder (flat_map (maximal p) kids)).
    assert (Hkids : children_of F (t_node t) = map t_node kids) by (apply tree_at_children; easy).
    assert (Hpre : preorder t = t_node t :: flat_map preorder kids) by (destruct t; easy).
    assert (Hmax : maximal p t = flat_map (maximal p) kids) by (destruct t; cbn in *; now rewrite Ep).
    assert (Hkat : Forall (tree_at F) kids) by (destruct Ht; easy).
    assert (HS1 : forall x, In x S1 -> In x (flat_map preorder kids)) by (intros x; apply maximals_sub).
    assert (Hnot : ~ In (t_node t) S1).
    { intros H. apply HS1 in H. pose proof (preorder_nodup F t W Ht) as Hn. rewrite Hpre in Hn. now inversion Hn. }
    assert (H1 : exists D1, (if has_children (lk D) (t_node t)
                  then drain_loop fuel f (first_child (lk D) (t_node t)) (D, k)
                  else Ok (D, k)) = Ok (D1, k + length (flat_map (maximal p) kids)) /\
                 InvF D1 (f_prune S1 F) /\ removed S1 D D1).
    { unfold has_children, first_child. rewrite (r_first _ _ (iv_rep D F I)), Hkids.
      destruct (hd_error (map t_node kids)) as [c|] eqn:Em.
      - rewrite <- Em. apply (IH kids D F k); try easy.
        + rewrite app_length, Hpre in Hfuel. cbn in Hfuel. lia.
        + unfold at_head. destruct kids as [|c0 kids']; [easy|]. exists []. cbn [app]. rewrite <- Hkids.
          apply child_siblings; [easy|]. rewrite Hkids. now left.
        + pose proof (preorder_nodup F t W Ht) as Hn. rewrite Hpre in Hn. now inversion Hn.
        + intros x Hx. apply Hlt, in_app_iff. left. rewrite Hpre. now right.
        + intros S D' HS x Hx. apply (Hst S D' HS). cbn [flat_map]. apply in_app_iff. left. rewrite Hpre. now right.
      - assert (Ek : kids = []) by (destruct kids; [easy|discriminate]).
        unfold S1. rewrite Ek. cbn. exists D. rewrite Nat.add_0_r. split; [easy|]. split; [|apply removed_nil].
        eapply InvF_ext; [|exact I]. apply forest_eq_sym, f_prune_nil. }
    destruct H1 as (D1 & -> & I1 & Hr1). cbn [bind fst].
    destruct (Hafter S1) as (Hts1 & Hhd1 & Hsib1).
    { intros x Hx. rewrite Hpre. right. now apply HS1. }
    assert (Hnx : next_sibling (lk D1) (t_node t) = hd_error (map t_node ts)).
    { unfold next_sibling. rewrite (r_next _ _ (iv_rep D1 _ I1)), (Hsib1 Hnot).
      apply succ_in_at. rewrite <- (Hsib1 Hnot). apply (wf_nodup _ (r_wf _ _ (iv_rep D1 _ I1))). }
    rewrite Hnx.
    destruct (IH ts D1 (f_prune S1 F) (k + length (flat_map (maximal p) kids))) as (D2 & E2 & I2 & Hr2); try easy.
    + rewrite app_length in Hfuel. destruct t. cbn in Hfuel. lia.
    + intros x Hx. rewrite (rv_fresh _ _ _ Hr1). apply Hlt, in_app_iff. now right.
    + intros S D' HS x Hx HxS.
      apply (Hst (S1 ++ S) D'); [now apply (removed_app _ _ D D1)| |].
      * cbn [flat_map]. apply in_app_iff. now right.
      * rewrite in_app_iff. intros [H|H]; [|easy]. apply (Hdisj x); [|easy]. rewrite Hpre. right. now apply HS1.
    + rewrite E2. cbn [flat_map]. rewrite Hmax, flat_map_app. exists D2.
      split; [do 2 f_equal; rewrite app_length; lia|]. split.
      * eapply InvF_ext; [|exact I2]. apply f_prune_prune.
      * now apply (removed_app _ _ D D1).
Qed.

(* the remaining tree *)
Lemma drained_node p t : t_node (drained p t) = t_node t.
Proof. now destruct t. Qed.

Lemma maximal_self p t : ~ In (t_node t) (flat_map preorder (flat_map (maximal p) (t_kids t))) ->
  p (t_node t) = false -> ~ In (t_node t) (flat_map preorder (maximal p t)).
Proof. destruct t as [n ts]. cbn. intros H E. now rewrite E. Qed.

Lemma tree_drained F p : wf_forest F ->
  forall t S, tree_at F t ->
  (forall x, In x (preorder t) -> In x S <-> In x (flat_map preorder (flat_map (maximal p) (t_kids t)))) ->
  tree_at (f_prune S F) (drained p t).
Proof.
  intros W. induction t as [n ts IH] using tree_ind'. intros S Hat HS. cbn [drained].
  inversion Hat as [? ? E Hall]; subst. pose proof (preorder_nodup F _ W Hat) as Hnd.
  cbn [preorder] in Hnd. inversion Hnd as [|? ? Hn Hnd']; subst.
  assert (HnS : ~ In n S).
  { intros H. apply HS in H; [|now left]. cbn [t_kids] in H. now apply maximals_sub in H. }
  rewrite Forall_forall in IH, Hall.
  (* a kid is removed iff it satisfies p; below a kept kid the same rule applies *)
  assert (Hkid : forall c, In c ts ->
    (forall x, In x (preorder c) -> In x S <-> In x (flat_map preorder (maximal p c)))).
  { intros c Hc x Hx. rewrite HS.
    - cbn [t_kids]. rewrite flat_map_flat_map, in_flat_map. split.
      + intros (d & Hd & Hxd). destruct (Nat.eq_dec (t_node c) (t_node d)) as [Ecd|Ecd].
        * assert (c = d) by (apply (tree_at_unique F c (Hall c Hc) d (Hall d Hd)); easy). now subst.
        * exfalso. apply maximal_sub in Hxd. 
          apply (preorder_iff F c x W (Hall c Hc)) in Hx. apply (preorder_iff F d x W (Hall d Hd)) in Hxd.
          assert (Pc : parent_of F (t_node c) = Some n) by (apply (wf_child F W); rewrite E; now apply in_map).
          assert (Pd : parent_of F (t_node d) = Some n) by (apply (wf_child F W); rewrite E; now apply in_map).
          destruct (anc_linear F _ _ _ Hx Hxd) as [H|H].
          -- destruct H as [|a m q Hq H]; [easy|]. rewrite Pd in Hq. injection Hq as <-.
             now apply (tree_no_loop F (T n ts) a W Hat H).
          -- destruct H as [|a m q Hq H]; [easy|]. rewrite Pc in Hq. injection Hq as <-.
             now apply (tree_no_loop F (T n ts) a W Hat H).
      + intros Hxc. now exists c.
    - right. apply in_flat_map. now exists c. }
  constructor.
  - cbn [f_prune children_of]. replace (mem n S) with false by (symmetry; now apply mem_not_In).
    rewrite E.
    assert (Hck : Forall (fun c => ~ In (t_node c) (flat_map preorder (t_kids c))) ts).
    { rewrite Forall_forall. intros c Hc Hin. pose proof (preorder_nodup F c W (Hall c Hc)) as Hd.
      destruct c. cbn in *. now inversion Hd. }
    clear - Hkid Hck. induction ts as [|c ts IHts]; [easy|]. cbn.
    rewrite map_app. rewrite <- IHts; [|intros; apply Hkid; [now right|easy]|now inversion Hck].
    unfold without. cbn.
    pose proof (Hkid c (or_introl eq_refl) (t_node c) (preorder_self c)) as Hc.
    destruct (p (t_node c)) eqn:Ep.
    + replace (mem (t_node c) S) with true; [easy|]. symmetry. apply mem_In, Hc.
      destruct c as [m us]. cbn in *. rewrite Ep. cbn. now left.
    + replace (mem (t_node c) S) with false; cbn.
      * now rewrite drained_node.
      * symmetry. apply mem_not_In. rewrite Hc. rewrite Forall_forall in Hck.
        specialize (Hck c (or_introl eq_refl)). apply maximal_self; [|easy]. intros H.
        apply maximals_sub in H. now apply Hck.
  - rewrite Forall_forall. intros u Hu. apply in_flat_map in Hu. destruct Hu as (c & Hc & Hu).
    destruct (p (t_node c)) eqn:Ep; [easy|]. destruct Hu as [<-|[]].
    apply IH; [easy|now apply Hall|]. intros x Hx. rewrite (Hkid c Hc x Hx).
    destruct c as [m us]. cbn in *. now rewrite Ep.
Qed.

Theorem drain_spec D F t f : InvF D F -> tree_at F t -> t_node t < fresh D -> stable f D ->
  let p := f D in
  let ms := flat_map (maximal p) (t_kids t) in
  let S := flat_map preorder ms in
  exists D', drain (t_node t) f D = Ok (D', length ms) /\ InvF D' (f_prune S F) /\
    removed S D D' /\ tree_at (f_prune S F) (drained p t).
Proof.
  intros I Ht Hn Hst p ms S. unfold drain.
  pose proof (r_wf _ _ (iv_rep D F I)) as W.
  pose proof (preorder_nodup F t W Ht) as Hnd.
  assert (Hpre : preorder t = t_node t :: flat_map preorder (t_kids t)) by (destruct t; easy).
  rewrite Hpre in Hnd. inversion Hnd as [|? ? Hnin Hnd']; subst.
  pose proof (tree_size D F t I Ht Hn) as Hsz. rewrite Hpre in Hsz. cbn in Hsz.
  unfold first_child. rewrite (r_first _ _ (iv_rep D F I)), (tree_at_children F t Ht).
  destruct (drain_loop_spec f p (Datatypes.S (enough D)) (t_kids t) D F 0) as (D' & E & I' & Hr); try easy.
  - unfold enough. lia.
  - destruct Ht; easy.
  - unfold at_head. pose proof (tree_at_children F t Ht) as Hk. destruct (t_kids t) as [|c ks]; [easy|].
    exists []. cbn [app]. rewrite <- Hk. apply child_siblings; [easy|]. rewrite Hk. now left.
  - intros x Hx. apply (tree_nodes_exist D F t); try easy. rewrite Hpre. now right.
  - intros S' D' HS x _ Hx. now apply (Hst S' D').
  - exists D'. split; [easy|]. split; [easy|]. split; [easy|].
    apply tree_drained; try easy.
Qed.
