(* remove_node in a document whose storage need not fit the nodes: what it frees, and when it panics. *)
From Coq Require Import List Bool PeanoNat NArith Lia Permutation.
From Verif Require Import Base Ids Links Tree Iter ForestSpec ListFacts TreeProofs ForestFacts IterSpec IterProofs
  PruneFacts Data Attrs Slab SlabProofs NodeApi Doc AttrFacts LinkProofs DocSpec RemoveProofs History InvProofs HistoryProofs
  TreeSpec TreeApi World WorldSpec WorldInv MixProofs.
Import ListNotations.

(* ---- freeing several places *)
Fixpoint free (ks : list nat) (s : slab) : option slab :=
  match ks with
  | [] => Some s
  | k :: t => match slab_remove s k with Ok r => free t (snd r) | _ => None end
  end.
Lemma free_app a b : forall s, free (a ++ b) s = match free a s with Some s' => free b s' | None => None end.
Proof. induction a as [|k a IH]; intros s; cbn; [easy|]. destruct (slab_remove s k); [apply IH|easy|easy]. Qed.
Lemma keys_app D a b : keys_of D (a ++ b) = keys_of D a ++ keys_of D b.
Proof. unfold keys_of. apply flat_map_app. Qed.
Lemma keys_same D D' l : (forall n, In n l -> storage_key D' n = storage_key D n) -> keys_of D' l = keys_of D l.
Proof.
  unfold keys_of. induction l as [|x l IH]; intros H; cbn; [easy|]. rewrite (H x) by now left. f_equal. apply IH. intros n Hn. apply H. now right.
Qed.
Lemma keys_perm D a b : Permutation a b -> Permutation (keys_of D a) (keys_of D b).
Proof. unfold keys_of. apply Permutation_flat_map. Qed.

Lemma free_all ks : forall s, NoDup ks -> (forall k, In k ks -> slab_get s k <> None) ->
  exists s', free ks s = Some s' /\ forall j, slab_get s' j = if mem j ks then None else slab_get s j.
Proof.
  induction ks as [|k ks IH]; intros s Hn Ho; cbn [free].
  - exists s. now split.
  - destruct (slab_get s k) as [n|] eqn:Eg; [|exfalso; apply (Ho k); [now left|exact Eg]].
    destruct (slab_remove_get s k n Eg) as (s1 & -> & G1 & G2). cbn [snd]. inversion Hn as [|? ? Hk Hn']; subst.
    destruct (IH s1 Hn') as (s' & E & G).
    + intros j Hj. rewrite G2; [apply Ho; now right|]. intros ->. easy.
    + exists s'. split; [exact E|]. intros j. rewrite G, mem_cons. destruct (Nat.eqb_spec j k) as [->|Hj]; cbn [orb].
      * destruct (mem k ks); [reflexivity|exact G1].
      * rewrite (G2 j Hj). reflexivity.
Qed.
Lemma free_some ks : forall s s', free ks s = Some s' -> NoDup ks /\ forall k, In k ks -> slab_get s k <> None.
Proof.
  induction ks as [|k ks IH]; intros s s' H; cbn [free] in H; [split; [constructor|easy]|].
  destruct (slab_get s k) as [n|] eqn:Eg; [|rewrite (slab_remove_none s k Eg) in H; easy].
  destruct (slab_remove_get s k n Eg) as (s1 & Es & G1 & G2). rewrite Es in H. destruct (IH _ _ H) as (Hn & Ho). cbn [snd] in Ho.
  assert (Hk : ~ In k ks) by (intros Hk; now apply (Ho k)).
  split; [now constructor|]. intros j [<-|Hj]; [congruence|]. rewrite <- G2; [now apply Ho|]. intros ->. easy.
Qed.

(* ---- the order in which remove_node frees *)
Fixpoint post (t : tree) : list nid := match t with T n ts => flat_map post ts ++ [n] end.
Lemma post_perm t : Permutation (post t) (preorder t).
Proof.
  induction t as [n ts IH] using tree_ind'. cbn [post preorder]. rewrite <- Permutation_cons_append. constructor.
  induction IH as [|c ts Hc _ IHts]; cbn; [constructor|]. now apply Permutation_app.
Qed.
Lemma post_iff t x : In x (post t) <-> In x (preorder t).
Proof. split; apply Permutation_in; [|symmetry]; apply post_perm. Qed.
Lemma posts_iff ts x : In x (flat_map post ts) <-> In x (flat_map preorder ts).
Proof. rewrite !in_flat_map. split; intros (c & H1 & H2); exists c; (split; [exact H1|now apply post_iff]). Qed.

Lemma finish_any n D F : Rep (lk D) F -> parent_of F n <> Some n ->
  match free (keys_of D [n]) (store D) with
  | None => remove_finish n D = Panic PSlabKey
  | Some s' => exists D', remove_finish n D = Ok D' /\ Rep (lk D') (f_detach n F) /\ store D' = s' /\
    fresh D' = fresh D /\ droot D' = droot D /\
    (forall m, node_type D' m = node_type D m /\ tag_name D' m = tag_name D m /\ id_of D' m = id_of D m /\
               text_of D' m = text_of D m /\ attributes D' m = attributes D m /\
               linked_nodes D' m = linked_nodes D m /\ l_root (lk D') m = l_root (lk D) m /\
               storage_key D' m = if Nat.eqb m n then None else storage_key D m)
  end.
Proof.
  intros R A. unfold remove_finish.
  destruct (detach_nil_ok n (lk D) F R A) as (L' & -> & R' & Hroot). cbn [bind].
  change (storage_key (with_lk L' D) n) with (storage_key D n).
  assert (Hfields : forall m,
     let D1 := modify n (set_key None) (with_lk L' D) in
     node_type D1 m = node_type D m /\ tag_name D1 m = tag_name D m /\ id_of D1 m = id_of D m /\
     text_of D1 m = text_of D m /\ attributes D1 m = attributes D m /\
     linked_nodes D1 m = linked_nodes D m /\ l_root (lk D1) m = l_root (lk D) m /\
     storage_key D1 m = if Nat.eqb m n then None else storage_key D m).
  { intros m. cbn zeta. unfold modify, node_type, tag_name, id_of, text_of, attributes, linked_nodes, storage_key.
    cbn. rewrite upd_eq. destruct (Nat.eqb_spec m n) as [->|]; cbn; repeat split; apply Hroot. }
  unfold keys_of. cbn [flat_map]. rewrite app_nil_r. destruct (storage_key D n) as [k|] eqn:Ek; cbn [free].
  - change (store (modify n (set_key None) (with_lk L' D))) with (store D).
    destruct (slab_get (store D) k) as [x|] eqn:Eg; [|now rewrite (slab_remove_none _ _ Eg)].
    destruct (slab_remove_get _ _ _ Eg) as (s' & -> & _). cbn [bind fst snd].
    eexists. split; [reflexivity|]. split; [exact R'|]. split; [reflexivity|]. split; [reflexivity|]. split; [reflexivity|]. exact Hfields.
  - eexists. split; [reflexivity|]. split; [exact R'|]. split; [reflexivity|]. split; [reflexivity|]. split; [reflexivity|].
    exact Hfields.
Qed.

Definition RI2 (D : dom) (F : forest) : Prop := Rep (lk D) F /\ LInv D.

Theorem remove_rec_any t : forall fuel D F, RI2 D F -> tree_at F t -> length (preorder t) < fuel ->
  match free (keys_of D (post t)) (store D) with
  | None => remove_rec fuel (t_node t) D = Panic PSlabKey
  | Some s' => exists D', remove_rec fuel (t_node t) D = Ok D' /\ RI2 D' (f_prune (preorder t) F) /\
      removed (preorder t) D D' /\ store D' = s'
  end.
Proof.
  induction t as [n ts IH] using tree_ind'. intros fuel D F (R & I) Hat Hfuel.
  destruct fuel as [|fuel]; [lia|]. cbn [t_node remove_rec].
  inversion Hat as [? ? E Hall]; subst.
  destruct (remove_links_spec n D I) as (D1 & -> & Hf1 & I1 & Ha1 & Hl1). cbn [bind].
  assert (Hrem1 : removed [n] D D1 -> False \/ True) by now right. clear Hrem1.
  assert (R1 : Rep (lk D1) F) by (rewrite (fr_lk D D1 Hf1); exact R).
  assert (HS1 : store D1 = store D) by apply Hf1.
  assert (HK1 : forall l, keys_of D1 l = keys_of D l) by (intros l; apply keys_same; intros m _; apply Hf1).
  pose proof (r_wf _ _ R) as W.
  pose proof (preorder_nodup F (T n ts) W Hat) as Hnd. cbn [preorder] in Hnd.
  (* the loop over the children *)
  assert (Hloop : forall rest done, ts = done ++ rest ->
    forall fuel' D2, length rest < fuel' -> RI2 D2 (f_prune (flat_map preorder done) F) ->
    removed (flat_map preorder done) D1 D2 ->
    match free (keys_of D1 (flat_map post rest)) (store D2) with
    | None => for_children lk fuel' (remove_rec fuel)
        (mkChildren (hd_error (map t_node rest)) (last_error (map t_node ts))) D2 = Panic PSlabKey
    | Some s' => exists D3, for_children lk fuel' (remove_rec fuel)
        (mkChildren (hd_error (map t_node rest)) (last_error (map t_node ts))) D2 = Ok D3 /\
      RI2 D3 (f_prune (flat_map preorder ts) F) /\ removed (flat_map preorder ts) D1 D3 /\ store D3 = s'
    end).
  { induction rest as [|c rest IHr]; intros done Ets fuel' D2 Hf' HI2 Hrm.
    - rewrite app_nil_r in Ets. subst done. destruct fuel' as [|fuel']; [lia|]. cbn [for_children].
      unfold children_next, children_finished. cbn [c_back c_next map hd_error].
      destruct (last_error (map t_node ts)) as [b|] eqn:Eb.
      + assert (Hb : In b (flat_map preorder ts)).
        { apply last_error_In, in_map_iff in Eb. destruct Eb as (t & <- & Ht).
          apply in_flat_map. exists t. split; [easy|apply preorder_self]. }
        assert (Hn : next_sibling (lk D2) b = None).
        { unfold next_sibling. rewrite (r_next _ _ (proj1 HI2)). cbn.
          rewrite (proj2 (mem_In b _) Hb). cbn. now rewrite Nat.eqb_refl. }
        rewrite Hn. cbn. exists D2. easy.
      + exists D2. easy.
    - destruct fuel' as [|fuel']; [lia|]. cbn [for_children].
      assert (Hndts : NoDup (map t_node ts)) by (rewrite <- E; apply children_nodup; exact W).
      assert (Hin_n : ~ In n (flat_map preorder ts)) by now inversion Hnd.
      assert (Hdone_n : mem n (flat_map preorder done) = false).
      { apply mem_not_In. intros H. apply Hin_n. rewrite Ets, flat_map_app. apply in_app_iff. now left. }
      assert (Hsplit : NoDup (flat_map preorder done ++ preorder c ++ flat_map preorder rest)).
      { inversion Hnd; subst. rewrite flat_map_app in H2. cbn in H2. exact H2. }
      assert (Hdis_cd : forall x, In x (preorder c) -> ~ In x (flat_map preorder done)).
      { intros x Hx Hd. clear - Hsplit Hx Hd. induction (flat_map preorder done) as [|y l IHl]; [easy|].
        cbn in Hsplit. inversion Hsplit; subst. destruct Hd as [->|Hd]; [|auto].
        apply H1. apply in_app_iff. right. apply in_app_iff. now left. }
      assert (Hdis_rd : forall x, In x (map t_node (c :: rest)) -> ~ In x (flat_map preorder done)).
      { intros x Hx Hd. apply in_map_iff in Hx. destruct Hx as (t & <- & Ht).
        clear - Hsplit Ht Hd. induction (flat_map preorder done) as [|y l IHl]; [easy|].
        cbn in Hsplit. inversion Hsplit; subst. destruct Hd as [->|Hd]; [|auto].
        apply H1. apply in_app_iff. right. apply in_app_iff. destruct Ht as [->|Ht].
        - left. apply preorder_self.
        - right. apply in_flat_map. exists t. split; [easy|apply preorder_self]. }
      assert (Hch : children_of (f_prune (flat_map preorder done) F) n = map t_node (c :: rest)).
      { cbn. rewrite Hdone_n, E, Ets, map_app. unfold without. rewrite filter_app.
        replace (filter _ (map t_node done)) with (@nil nid).
        - cbn [app]. now apply without_none.
        - symmetry. clear. induction done as [|t done IHd]; [easy|]. cbn.
          replace (mem (t_node t) _) with true.
          + cbn. rewrite <- IHd at 1. 
            assert (Hw : forall l, (forall x, In x l -> In x (map t_node done)) ->
              filter (fun x => negb (mem x (preorder t ++ flat_map preorder done))) l = []).
            { clear. induction l as [|x l IHl]; intros H; [easy|]. cbn.
              replace (mem x (preorder t ++ flat_map preorder done)) with true.
              - cbn. apply IHl. intros y Hy. apply H. now right.
              - symmetry. apply mem_In, in_app_iff. right. specialize (H x (or_introl eq_refl)).
                apply in_map_iff in H. destruct H as (u & <- & Hu). apply in_flat_map. exists u.
                split; [easy|apply preorder_self]. }
            rewrite (Hw (map t_node done)); [|easy]. now rewrite IHd.
          + symmetry. apply mem_In, in_app_iff. left. apply preorder_self. }
      assert (HR2 : Rep (lk D2) (f_prune (flat_map preorder done) F)) by apply HI2.
      pose proof (children_good (lk D2) _ n HR2) as Hgood. rewrite Hch in Hgood.
      assert (Hlast : last_error (map t_node ts) = last_error (map t_node (c :: rest))).
      { rewrite Ets, map_app. unfold last_error. rewrite rev_app_distr.
        destruct (rev (map t_node (c :: rest))) eqn:Er; [|reflexivity].
        apply (f_equal (@length nid)) in Er. rewrite rev_length in Er. cbn in Er. lia. }
      destruct (last_error (map t_node (c :: rest))) as [b|] eqn:Eb.
      2:{ apply last_error_none in Eb. easy. }
      unfold children_next, children_finished. cbn [c_back c_next map hd_error].
      rewrite Hlast. rewrite (proj1 (proj2 Hgood) b Eb). cbn [onid_eqb].
      destruct (good_split _ _ _ [] (t_node c) (map t_node rest) Hgood eq_refl) as (Hnx & _).
      rewrite Hnx.
      (* remove the child *)
      assert (Hc_in : In c ts) by (rewrite Ets; apply in_app_iff; right; now left).
      rewrite Forall_forall in IH, Hall.
      assert (Hatc : tree_at (f_prune (flat_map preorder done) F) c).
      { apply tree_at_prune; [now apply Hall|exact Hdis_cd]. }
      assert (Hsz : length (preorder c) < fuel).
      { pose proof (kid_size (T n ts) c Hc_in). cbn [preorder length] in *. lia. }
      assert (HKc : keys_of D2 (post c) = keys_of D1 (post c)).
      { apply keys_same. intros x Hx. rewrite (rv_key _ _ _ Hrm). apply post_iff in Hx.
        now rewrite (proj2 (mem_not_In x _) (Hdis_cd x Hx)). }
      pose proof (IH c Hc_in fuel D2 _ HI2 Hatc Hsz) as HIHc. rewrite HKc in HIHc.
      cbn [flat_map]. rewrite keys_app, free_app.
      destruct (free (keys_of D1 (post c)) (store D2)) as [s1|]; [|rewrite HIHc; reflexivity].
      destruct HIHc as (D3 & -> & HI3 & Hrm3 & <-). cbn [bind].
      rewrite <- Hlast.
      specialize (IHr (done ++ [c])). rewrite <- app_assoc in IHr. cbn [app] in IHr.
      specialize (IHr Ets fuel' D3 ltac:(cbn in Hf'; lia)).
      rewrite flat_map_app in IHr. cbn [flat_map] in IHr. rewrite app_nil_r in IHr.
      apply IHr.
      + destruct HI3 as (HR3 & HL3). split; [|easy].
        eapply Rep_ext; [apply f_prune_prune|exact HR3].
      + now apply (removed_app _ _ D1 D2 D3). }
  assert (Hc0 : children (lk D1) n = mkChildren (hd_error (map t_node ts)) (last_error (map t_node ts))).
  { unfold children, first_child, last_child. now rewrite (r_first _ _ R1), (r_last _ _ R1), E. }
  rewrite Hc0.
  assert (Hkl : length ts < fuel).
  { pose proof (kids_length (T n ts)). cbn [t_kids preorder length] in *. lia. }
  assert (HR0 : RI2 D1 (f_prune (flat_map preorder []) F)).
  { split; [|easy]. eapply Rep_ext; [apply forest_eq_sym, f_prune_nil|exact R1]. }
  pose proof (Hloop ts [] eq_refl fuel D1 Hkl HR0 (removed_nil D1)) as HL0. cbn [post]. rewrite keys_app, free_app, <- HS1, <- !HK1.
  destruct (free (keys_of D1 (flat_map post ts)) (store D1)) as [s1|]; [|rewrite HL0; reflexivity].
  destruct HL0 as (D3 & -> & (R3 & I3) & Hrm3 & <-). cbn [bind].
  assert (A3 : parent_of (f_prune (flat_map preorder ts) F) n <> Some n).
  { pose proof (tree_parent_neq F (T n ts) W Hat) as Hne. cbn in Hne |- *. now destruct (mem n _). }
  assert (HKn : keys_of D1 [n] = keys_of D3 [n]).
  { symmetry. apply keys_same. intros x [<-|[]]. rewrite (rv_key _ _ _ Hrm3).
    replace (mem n (flat_map preorder ts)) with false; [reflexivity|]. symmetry. apply mem_not_In. now inversion Hnd. }
  rewrite HKn. pose proof (finish_any n D3 _ R3 A3) as HF.
  destruct (free (keys_of D3 [n]) (store D3)) as [s'|]; [|rewrite HF; reflexivity].
  destruct HF as (D4 & -> & R4 & S4 & Hfr & Hro & Hfields).
  exists D4. split; [reflexivity|].
  assert (Hleaf : children_of (f_prune (flat_map preorder ts) F) n = []).
  { cbn. destruct (mem n _) eqn:Em; [easy|]. rewrite E. unfold without.
    assert (forall l, (forall x, In x l -> In x (map t_node ts)) ->
      filter (fun x => negb (mem x (flat_map preorder ts))) l = []).
    { induction l as [|x l IHl]; intros H; [easy|]. cbn.
      replace (mem x (flat_map preorder ts)) with true.
      - cbn. apply IHl. intros y Hy. apply H. now right.
      - symmetry. apply mem_In. specialize (H x (or_introl eq_refl)).
        apply in_map_iff in H. destruct H as (u & <- & Hu). apply in_flat_map. exists u.
        split; [easy|apply preorder_self]. }
    now apply H. }
  assert (Heq : forest_eq (f_detach n (f_prune (flat_map preorder ts) F)) (f_prune (preorder (T n ts)) F)).
  { eapply forest_eq_trans; [apply f_detach_leaf; exact Hleaf|].
    eapply forest_eq_trans; [apply f_prune_prune|]. apply f_prune_set. intros x. cbn.
    rewrite in_app_iff. cbn. tauto. }
  split; [|split; [|exact S4]].
  - split.
    + eapply Rep_ext; [exact Heq|exact R4].
    + apply (LInv_ext D3 D4 I3); intros m; apply Hfields.
  - (* combine the three phases *)
    apply (removed_set (n :: flat_map preorder ts)); [easy|].
    assert (Hall13 : forall m, node_type D3 m = node_type D1 m) by (apply Hrm3).
    split.
    + rewrite Hfr, (rv_fresh _ _ _ Hrm3). apply Hf1.
    + rewrite Hro, (rv_root _ _ _ Hrm3). apply Hf1.
    + intros m. rewrite (proj1 (Hfields m)), (rv_type _ _ _ Hrm3). apply Hf1.
    + intros m. rewrite (proj1 (proj2 (Hfields m))), (rv_tag _ _ _ Hrm3). apply Hf1.
    + intros m. rewrite (proj1 (proj2 (proj2 (Hfields m)))), (rv_id _ _ _ Hrm3). apply Hf1.
    + intros m. rewrite (proj1 (proj2 (proj2 (proj2 (Hfields m))))), (rv_text _ _ _ Hrm3). apply Hf1.
    + intros m. destruct (Hfields m) as (_ & _ & _ & _ & _ & _ & _ & ->). rewrite mem_cons.
      destruct (Nat.eqb m n); cbn [orb]; [easy|]. rewrite (rv_key _ _ _ Hrm3), (fr_key _ _ Hf1). easy.
    + intros x. destruct (Hfields x) as (_ & _ & _ & _ & -> & _).
      rewrite (rv_attrs _ _ _ Hrm3), Ha1, filter_filter. apply filter_ext. intros a.
      unfold cut. rewrite !mem_cons. destruct (svg_link a); [|easy]. cbn [andb].
      destruct (link_target (a_value a)) as [t|]; rewrite ?mem_cons;
        change (mem x []) with false; try change (mem t []) with false;
        destruct (Nat.eqb x n), (mem x (flat_map preorder ts)); cbn; try easy;
        destruct (Nat.eqb t n), (mem t (flat_map preorder ts)); easy.
    + intros p b Hp Hb. destruct (Hfields b) as (_ & _ & _ & _ & _ & -> & _).
      rewrite (rv_linked _ _ _ Hrm3).
      * apply Hl1; [apply Hp; now left|]. intros ->. apply Hb. now left.
      * intros s Hs'. apply Hp. now right.
      * intros H. apply Hb. now right.
    + intros m. destruct (Hfields m) as (_ & _ & _ & _ & _ & _ & -> & _).
      rewrite (rv_lroot _ _ _ Hrm3). now rewrite (fr_lk _ _ Hf1).
Qed.

Lemma mix_tree_size D F t : Rep (lk D) F -> (forall n, fresh D <= n -> parent_of F n = None) -> tree_at F t -> t_node t < fresh D ->
  length (preorder t) <= fresh D.
Proof.
  intros R Hi Ht Hn. apply nodup_bound.
  - apply (preorder_nodup F t); [apply R|easy].
  - intros x Hx. apply (preorder_iff F t x (r_wf _ _ R) Ht) in Hx. destruct Hx as [|a x p Hp _]; [easy|].
    destruct (Nat.lt_ge_cases x (fresh D)) as [|Hx]; [easy|]. pose proof (Hi x Hx). congruence.
Qed.

Theorem remove_any D F t : TI D -> KI D -> Rep (lk D) F -> tree_at F t -> exists_node D (t_node t) ->
  let ks := keys_of D (preorder t) in
  (NoDup ks /\ (forall k, In k ks -> slab_get (store D) k <> None) ->
     exists D', remove_node (t_node t) D = Ok D' /\ Rep (lk D') (f_prune (preorder t) F) /\ removed (preorder t) D D' /\
       forall j, slab_get (store D') j = if mem j ks then None else slab_get (store D) j) /\
  (~ (NoDup ks /\ forall k, In k ks -> slab_get (store D) k <> None) -> remove_node (t_node t) D = Panic PSlabKey).
Proof.
  intros (F0 & R0 & Hi) (HL & _) R Ht Hn ks.
  assert (Hi' : forall n, fresh D <= n -> parent_of F n = None).
  { intros n Hb. rewrite <- (r_parent _ _ R), (r_parent _ _ R0). apply (Hi n Hb). }
  assert (Hsz : length (preorder t) < enough D) by (unfold enough; pose proof (mix_tree_size D F t R Hi' Ht Hn); lia).
  pose proof (remove_rec_any t (enough D) D F (conj R HL) Ht Hsz) as H. unfold remove_node.
  pose proof (keys_perm D _ _ (post_perm t)) as HP. fold ks in HP.
  assert (HE : NoDup ks /\ (forall k, In k ks -> slab_get (store D) k <> None) <->
    NoDup (keys_of D (post t)) /\ (forall k, In k (keys_of D (post t)) -> slab_get (store D) k <> None)).
  { split; intros (A & B); (split; [eapply Permutation_NoDup; [|exact A]; now try symmetry|]);
      intros k Hk; apply B; (eapply Permutation_in; [|exact Hk]); now try symmetry. }
  split.
  - intros Hok. apply HE in Hok. destruct Hok as (A & B). destruct (free_all _ (store D) A B) as (s' & E & G). rewrite E in H.
    destruct H as (D' & E1 & (R1 & _) & Hr & <-). exists D'. split; [exact E1|]. split; [exact R1|]. split; [exact Hr|].
    intros j. rewrite G. replace (mem j ks) with (mem j (keys_of D (post t))); [reflexivity|]. apply mem_ext. intros x.
    split; apply Permutation_in; [|symmetry]; exact HP.
  - intros Hno. destruct (free (keys_of D (post t)) (store D)) as [s'|] eqn:E; [|exact H].
    exfalso. apply Hno, HE. exact (free_some _ _ _ E).
Qed.
