(* remove_node: termination, no panic, exact effect. *)
From Coq Require Import List Bool PeanoNat NArith Lia.
From Verif Require Import Base Ids Links Tree Iter ForestSpec ListFacts TreeProofs ForestFacts IterSpec IterProofs
  PruneFacts Data Attrs Slab SlabProofs NodeApi Doc AttrFacts LinkProofs DocSpec.
Import ListNotations.

Definition name_mem (x : aname) (l : list aname) : bool := existsb (aname_eqb x) l.
Lemma name_mem_In x l : name_mem x l = true <-> In x l.
Proof.
  unfold name_mem. rewrite existsb_exists. split.
  - intros (y & H & E). apply aname_eqb_eq in E. now subst.
  - intros H. exists x. split; [easy|apply aname_eqb_refl].
Qed.

Lemma in_attrs_svg p l : In p (attrs_svg l) <-> In (snd p) l /\ a_name (snd p) = QId (fst p).
Proof.
  destruct p as [i a]. cbn. induction l as [|b l IH]; cbn; [easy|].
  destruct (a_name b) eqn:E; cbn; rewrite IH.
  - split.
    + intros [[= <- <-]|H]; tauto.
    + intros [[->|H] H2]; [left; congruence|tauto].
  - split; [tauto|]. intros [[->|H] H2]; [congruence|tauto].
Qed.

Lemma in_svg_link_names x l : In x (svg_link_names l) <-> exists a, In a l /\ a_name a = x /\ svg_link a = true.
Proof.
  unfold svg_link_names. rewrite in_map_iff. split.
  - intros (p & E & H). apply filter_In in H. destruct H as (H & Hl). apply in_attrs_svg in H.
    exists (snd p). split; [tauto|]. split; [easy|]. unfold svg_link. destruct H as (_ & ->). easy.
  - intros (a & H & E & Hl). unfold svg_link in Hl. destruct (a_name a) eqn:En; [|easy].
    exists (id, a). split; [cbn; congruence|]. apply filter_In. split; [|easy].
    apply in_attrs_svg. easy.
Qed.

Lemma in_svg_link_names_to n x l :
  In x (svg_link_names_to n l) <-> exists a, In a l /\ a_name a = x /\ svg_link a && links_to n a = true.
Proof.
  unfold svg_link_names_to. rewrite in_map_iff. split.
  - intros (p & E & H). apply filter_In in H. destruct H as (H & Hl). apply in_attrs_svg in H.
    exists (snd p). split; [tauto|]. split; [easy|]. unfold svg_link, links_to. destruct H as (_ & ->).
    rewrite is_link_container_target. destruct (link_target (a_value (snd p))); easy.
  - intros (a & H & E & Hl). apply andb_true_iff in Hl. destruct Hl as (Hl & Ht).
    unfold svg_link in Hl. destruct (a_name a) eqn:En; [|easy].
    exists (id, a). split; [cbn; congruence|]. apply filter_In. split; [|exact Ht].
    apply in_attrs_svg. easy.
Qed.

Lemma filter_filter {A} (p q : A -> bool) l : filter p (filter q l) = filter (fun x => q x && p x) l.
Proof. induction l as [|x l IH]; cbn; [easy|]. destruct (q x); cbn; [destruct (p x)|]; now rewrite IH. Qed.

Lemma named_target_drop x l name t : NoDup (map a_name l) ->
  named_target (drop_name x l) name = Some t -> named_target l name = Some t.
Proof.
  intros Hn. rewrite !named_target_in by (auto using NoDup_drop_name).
  intros (v & H & E). apply in_drop_name in H. exists v. tauto.
Qed.

Theorem remove_all_spec u names : forall D, LInv D ->
  exists D', remove_all u names D = Ok D' /\ frame D D' /\ LInv D' /\
    (forall x, attributes D' x =
       if Nat.eqb x u then filter (fun a => negb (name_mem (a_name a) names)) (attributes D x) else attributes D x) /\
    (forall p b, p u = false \/ (forall nm, In nm names -> named_target (attributes D u) nm <> Some b) ->
       filter p (linked_nodes D' b) = filter p (linked_nodes D b)).
Proof.
  induction names as [|nm names IH]; intros D I; cbn [remove_all].
  - exists D. split; [easy|]. split; [apply frame_refl|]. split; [easy|]. split; [|easy].
    intros x. destruct (Nat.eqb x u); [|easy]. cbn. induction (attributes D x) as [|a l IHl]; [easy|].
    cbn. now rewrite <- IHl.
  - destruct (remove_attribute_spec u nm D I) as (D1 & -> & Hf & Ha & Hl & I1). cbn [bind].
    destruct (IH D1 I1) as (D2 & H2 & Hf2 & I2 & Ha2 & Hl2). exists D2. split; [easy|].
    split; [now apply (frame_trans D D1)|]. split; [easy|]. split.
    + intros x. rewrite Ha2, Ha. destruct (Nat.eqb x u); [|easy].
      unfold drop_name. rewrite filter_filter. apply filter_ext. intros a. cbn.
      now destruct (aname_eqb (a_name a) nm).
    + intros p b Hp. rewrite Hl2.
      * rewrite Hl. destruct (named_target (attributes D u) nm) as [t|] eqn:Et; [|easy].
        destruct (Nat.eqb_spec b t) as [->|]; [|easy]. apply filter_del_first.
        destruct Hp as [Hp|Hp]; [easy|]. exfalso. apply (Hp nm); [now left|easy].
      * destruct Hp as [Hp|Hp]; [now left|]. right. intros nm' Hin Ht.
        apply (Hp nm'); [now right|]. rewrite Ha, Nat.eqb_refl in Ht.
        eapply named_target_drop; [apply I|exact Ht].
Qed.

(* filters that identify attributes by name and by predicate agree *)
Lemma filter_names l names (q : attr -> bool) : NoDup (map a_name l) ->
  (forall x, In x names <-> exists a, In a l /\ a_name a = x /\ q a = true) ->
  filter (fun a => negb (name_mem (a_name a) names)) l = filter (fun a => negb (q a)) l.
Proof.
  intros Hn H. apply filter_ext_in. intros a Ha. f_equal.
  destruct (name_mem (a_name a) names) eqn:E1.
  - apply name_mem_In, H in E1. destruct E1 as (b & Hb & E & Hq).
    assert (a = b) by (apply (unique_attr l); auto). now subst.
  - destruct (q a) eqn:E2; [|easy]. exfalso. assert (In (a_name a) names).
    { apply H. now exists a. }
    apply name_mem_In in H0. congruence.
Qed.

Definition keep_from (n : nid) (a : attr) : bool := negb (svg_link a && links_to n a).

Theorem unlink_users_spec n users : forall D, LInv D ->
  exists D', unlink_users n users D = Ok D' /\ frame D D' /\ LInv D' /\
    (forall x, attributes D' x =
       if mem x users then filter (keep_from n) (attributes D x) else attributes D x) /\
    (forall p b, b <> n -> filter p (linked_nodes D' b) = filter p (linked_nodes D b)).
Proof.
  induction users as [|u users IH]; intros D I; cbn [unlink_users].
  - exists D. split; [easy|]. split; [apply frame_refl|]. easy.
  - destruct (remove_all_spec u (svg_link_names_to n (attributes D u)) D I) as (D1 & -> & Hf & I1 & Ha & Hl).
    cbn [bind]. destruct (IH D1 I1) as (D2 & H2 & Hf2 & I2 & Ha2 & Hl2). exists D2. split; [easy|].
    split; [now apply (frame_trans D D1)|]. split; [easy|]. split.
    + assert (Hu : filter (fun a => negb (name_mem (a_name a) (svg_link_names_to n (attributes D u)))) (attributes D u)
               = filter (keep_from n) (attributes D u)).
      { apply filter_names; [apply I|]. intros x. apply in_svg_link_names_to. }
      intros x. rewrite Ha2, Ha, mem_cons. destruct (Nat.eqb_spec x u) as [->|]; cbn [orb]; [|easy].
      rewrite Hu. destruct (mem u users); [|easy].
      rewrite filter_filter. apply filter_ext. intros a. now destruct (keep_from n a).
    + intros p b Hb. rewrite Hl2 by easy. apply Hl. right. intros nm Hin Ht.
      apply in_svg_link_names_to in Hin. destruct Hin as (a & Hina & <- & Hq).
      apply andb_true_iff in Hq. destruct Hq as (_ & Hq). apply links_to_iff in Hq.
      apply named_target_in in Ht; [|apply I]. destruct Ht as (v & Hv & E).
      assert (a = mkAttr (a_name a) v) by (apply (unique_attr (attributes D u)); auto; apply I).
      rewrite H in Hq. cbn in Hq. congruence.
Qed.

Lemma cut_single n x a : cut [n] x a = svg_link a && (Nat.eqb x n || links_to n a).
Proof.
  unfold cut, links_to. rewrite mem_cons. change (mem x []) with false. rewrite orb_false_r.
  destruct (link_target (a_value a)); [|easy]. rewrite mem_cons. change (mem n0 []) with false.
  now rewrite orb_false_r.
Qed.

Theorem remove_links_spec n D : LInv D ->
  exists D', remove_links n D = Ok D' /\ frame D D' /\ LInv D' /\
    (forall x, attributes D' x = filter (fun a => negb (cut [n] x a)) (attributes D x)) /\
    (forall p b, p n = false -> b <> n -> filter p (linked_nodes D' b) = filter p (linked_nodes D b)).
Proof.
  intros I. unfold remove_links.
  destruct (remove_all_spec n (svg_link_names (attributes D n)) D I) as (D1 & -> & Hf & I1 & Ha & Hl).
  cbn [bind]. destruct (unlink_users_spec n (linked_nodes D1 n) D1 I1) as (D2 & H2 & Hf2 & I2 & Ha2 & Hl2).
  exists D2. split; [easy|]. split; [now apply (frame_trans D D1)|]. split; [easy|]. split.
  - assert (Hu : filter (fun a => negb (name_mem (a_name a) (svg_link_names (attributes D n)))) (attributes D n)
               = filter (fun a => negb (svg_link a)) (attributes D n)).
    { apply filter_names; [apply I|]. intros x. apply in_svg_link_names. }
    assert (Hall : forall x, attributes D2 x = filter (keep_from n) (attributes D1 x)).
    { intros x. rewrite Ha2. destruct (mem x (linked_nodes D1 n)) eqn:E; [easy|].
      apply mem_not_In, (count_occ_not_In Nat.eq_dec) in E. rewrite (li_sym D1 I1) in E.
      rewrite count_links_zero in E. symmetry. clear - E.
      induction (attributes D1 x) as [|a l IH]; cbn; [easy|].
      unfold keep_from at 1. replace (links_to n a) with false.
      - rewrite andb_false_r. cbn. rewrite IH; [easy|]. intros b Hb. apply E. now right.
      - symmetry. destruct (links_to n a) eqn:El; [|easy]. apply links_to_iff in El.
        exfalso. apply (E a); [now left|easy]. }
    intros x. rewrite Hall, Ha. destruct (Nat.eqb_spec x n) as [->|Hx].
    + rewrite Hu, filter_filter. apply filter_ext. intros a. rewrite cut_single, Nat.eqb_refl.
      unfold keep_from. destruct (svg_link a); easy.
    + apply filter_ext. intros a. rewrite cut_single.
      destruct (Nat.eqb_spec x n); [easy|]. reflexivity.
  - intros p b Hp Hb. rewrite Hl2 by easy. apply Hl. now left.
Qed.

Lemma removed_nil D : removed [] D D.
Proof.
  split; try easy. intros x. rewrite (filter_ext _ (fun _ => true)).
  - induction (attributes D x) as [|a l IH]; cbn; [easy|]. now rewrite <- IH.
  - intros a. unfold cut. cbn. destruct (link_target (a_value a)); now rewrite andb_false_r.
Qed.

Lemma removed_app S1 S2 D D1 D2 : removed S1 D D1 -> removed S2 D1 D2 -> removed (S1 ++ S2) D D2.
Proof.
  intros [] []. split; try congruence.
  - intros n. rewrite mem_app. rewrite rv_key0, rv_key. now destruct (mem n S1), (mem n S2).
  - intros x. rewrite rv_attrs0, rv_attrs, filter_filter. apply filter_ext. intros a.
    unfold cut. rewrite mem_app. destruct (svg_link a); [|easy]. cbn [andb].
    destruct (link_target (a_value a)) as [t|]; rewrite ?mem_app;
      destruct (mem x S1), (mem x S2); cbn; try easy; destruct (mem t S1), (mem t S2); easy.
  - intros p b Hp Hb. rewrite in_app_iff in Hb. rewrite rv_linked0, rv_linked; try tauto;
      intros s Hs; apply Hp; apply in_app_iff; tauto.
Qed.

Lemma removed_set S1 S2 D D' : (forall x, In x S1 <-> In x S2) -> removed S1 D D' -> removed S2 D D'.
Proof.
  intros H []. pose proof (mem_ext S1 S2 H) as Hm. split; try easy.
  - intros n. now rewrite <- Hm.
  - intros x. rewrite rv_attrs. apply filter_ext. intros a. unfold cut.
    destruct (link_target (a_value a)); now rewrite ?Hm.
  - intros p b Hp Hb. apply rv_linked.
    + intros s Hs. apply Hp. now apply H.
    + now rewrite H.
Qed.

(* remove_finish on a node without children *)
Lemma detach_nil_ok n L F : Rep L F -> parent_of F n <> Some n ->
  exists L', detach [] n L = Ok L' /\ Rep L' (f_detach n F) /\ (forall m, l_root L' m = l_root L m).
Proof.
  intros R A. pose proof (detach_refines [] n L F R) as H. change (mem n []) with false in H. cbn [orb] in H.
  replace (existsb (fun x => mem x [n]) (adjoining F n)) with false in H; [exact H|].
  symmetry. destruct (existsb _ _) eqn:E; [|easy]. apply existsb_exists in E.
  destruct E as (x & Hx & Hm). apply mem_In in Hm. destruct Hm as [<-|[]].
  rewrite (adjoining_eq L F n R) in Hx. apply in_app_iff in Hx.
  assert (Hp : l_parent L n <> Some n).
  { rewrite (r_parent L F R). exact A. }
  exfalso. destruct Hx as [Hx|Hx]; unfold oapp in Hx.
  - pose proof (Rep_next_neq L F n R). destruct (l_next L n) as [y|]; [destruct Hx as [->|[]]; congruence|].
    destruct (l_parent L n); [destruct Hx as [->|[]]; congruence|easy].
  - pose proof (Rep_prev_neq L F n R). destruct (l_prev L n) as [y|]; [destruct Hx as [->|[]]; congruence|].
    destruct (l_parent L n); [destruct Hx as [->|[]]; congruence|easy].
Qed.

Lemma remove_finish_spec n D F : Rep (lk D) F -> parent_of F n <> Some n -> slab_ok (store D) (storage_key D) ->
  exists D', remove_finish n D = Ok D' /\ Rep (lk D') (f_detach n F) /\
    slab_ok (store D') (storage_key D') /\
    fresh D' = fresh D /\ droot D' = droot D /\
    (forall m, node_type D' m = node_type D m /\ tag_name D' m = tag_name D m /\ id_of D' m = id_of D m /\
               text_of D' m = text_of D m /\ attributes D' m = attributes D m /\
               linked_nodes D' m = linked_nodes D m /\ l_root (lk D') m = l_root (lk D) m /\
               storage_key D' m = if Nat.eqb m n then None else storage_key D m).
Proof.
  intros R A Hs. unfold remove_finish.
  destruct (detach_nil_ok n (lk D) F R A) as (L' & -> & R' & Hroot). cbn [bind].
  unfold storage_key at 1. cbn [with_lk dt]. fold (storage_key D n).
  assert (Hfields : forall m,
     let D1 := modify n (set_key None) (with_lk L' D) in
     node_type D1 m = node_type D m /\ tag_name D1 m = tag_name D m /\ id_of D1 m = id_of D m /\
     text_of D1 m = text_of D m /\ attributes D1 m = attributes D m /\
     linked_nodes D1 m = linked_nodes D m /\ l_root (lk D1) m = l_root (lk D) m /\
     storage_key D1 m = if Nat.eqb m n then None else storage_key D m).
  { intros m. cbn zeta. unfold modify, node_type, tag_name, id_of, text_of, attributes, linked_nodes, storage_key.
    cbn. rewrite upd_eq. destruct (Nat.eqb_spec m n) as [->|]; cbn; repeat split; apply Hroot. }
  destruct (storage_key D n) as [k|] eqn:Ek.
  - destruct (slab_remove_spec (store D) (storage_key D) n k Hs Ek) as (s' & Hr & Hok & _).
    cbn [modify with_dt with_lk store]. rewrite Hr. cbn [bind fst snd].
    eexists. split; [reflexivity|]. cbn [with_store lk store fresh droot].
    split; [exact R'|]. split.
    { eapply slab_ok_ext; [|exact Hok]. intros m. specialize (Hfields m). cbn zeta in Hfields.
      destruct Hfields as (_ & _ & _ & _ & _ & _ & _ & Hk). exact Hk. }
    split; [easy|]. split; [easy|]. exact Hfields.
  - eexists. split; [reflexivity|]. split; [exact R'|]. split.
    { apply (slab_ok_ext (store D) (storage_key D)); [|exact Hs]. intros m.
      specialize (Hfields m). cbn zeta in Hfields. destruct Hfields as (_ & _ & _ & _ & _ & _ & _ & Hk).
      rewrite Hk. destruct (Nat.eqb_spec m n) as [Hmn|Hmn]; congruence. }
    split; [easy|]. split; [easy|]. exact Hfields.
Qed.

Lemma last_map_node ts : hd_error (rev (map t_node ts)) = last_error (map t_node ts).
Proof. reflexivity. Qed.

Definition RInv (D : dom) (F : forest) : Prop :=
  Rep (lk D) F /\ LInv D /\ slab_ok (store D) (storage_key D).

(* size of the recursion *)
Lemma kids_length t : length (t_kids t) < length (preorder t).
Proof.
  destruct t as [n ts]. cbn. apply Nat.lt_succ_r. induction ts as [|t ts IH]; cbn; [easy|].
  rewrite app_length. destruct t. cbn in *. lia.
Qed.
Lemma kid_size t c : In c (t_kids t) -> length (preorder c) < length (preorder t).
Proof.
  destruct t as [n ts]. cbn. intros H. apply Nat.lt_succ_r. induction ts as [|t ts IH]; cbn in *; [easy|].
  rewrite app_length. destruct H as [->|H]; [lia|]. specialize (IH H). lia.
Qed.

Theorem remove_rec_spec t : forall fuel D F, RInv D F -> tree_at F t -> length (preorder t) < fuel ->
  exists D', remove_rec fuel (t_node t) D = Ok D' /\ RInv D' (f_prune (preorder t) F) /\
    removed (preorder t) D D'.
Proof.
  induction t as [n ts IH] using tree_ind'. intros fuel D F (R & I & Hs) Hat Hfuel.
  destruct fuel as [|fuel]; [lia|]. cbn [t_node remove_rec].
  inversion Hat as [? ? E Hall]; subst.
  destruct (remove_links_spec n D I) as (D1 & -> & Hf1 & I1 & Ha1 & Hl1). cbn [bind].
  assert (Hrem1 : removed [n] D D1 -> False \/ True) by now right. clear Hrem1.
  assert (R1 : Rep (lk D1) F) by (rewrite (fr_lk D D1 Hf1); exact R).
  assert (Hs1 : slab_ok (store D1) (storage_key D1)).
  { rewrite (fr_store D D1 Hf1). eapply slab_ok_ext; [|exact Hs]. apply (fr_key D D1 Hf1). }
  pose proof (r_wf _ _ R) as W.
  pose proof (preorder_nodup F (T n ts) W Hat) as Hnd. cbn [preorder] in Hnd.
  (* the loop over the children *)
  assert (Hloop : forall rest done, ts = done ++ rest ->
    forall fuel' D2, length rest < fuel' -> RInv D2 (f_prune (flat_map preorder done) F) ->
    removed (flat_map preorder done) D1 D2 ->
    exists D3, for_children lk fuel' (remove_rec fuel)
        (mkChildren (hd_error (map t_node rest)) (last_error (map t_node ts))) D2 = Ok D3 /\
      RInv D3 (f_prune (flat_map preorder ts) F) /\ removed (flat_map preorder ts) D1 D3).
  { induction rest as [|c rest IHr]; intros done Ets fuel' D2 Hf' HI2 Hrm.
    - rewrite app_nil_r in Ets. subst done. destruct fuel' as [|fuel']; [lia|]. cbn [for_children].
      unfold children_next, children_finished. cbn [c_back c_next map hd_error].
      destruct (last_error (map t_node ts)) as [b|] eqn:Eb.
      + assert (Hb : In b (flat_map preorder ts)).
        { apply last_error_In, in_map_iff in Eb. destruct Eb as (t & <- & Ht).
          apply in_flat_map. exists t. split; [easy|apply preorder_self]. }
        assert (Hn : next_sibling (lk D2) b = None).
        { unfold next_sibling. rewrite (r_next _ _ (proj1 HI2)). cbn.
          rewrite (proj2 (mem_In b _) Hb). cbn. now rewrite Nat.eqb_refl. }
        rewrite Hn. cbn. exists D2. easy.
      + exists D2. easy.
    - destruct fuel' as [|fuel']; [lia|]. cbn [for_children].
      assert (Hndts : NoDup (map t_node ts)) by (rewrite <- E; apply children_nodup; exact W).
      assert (Hin_n : ~ In n (flat_map preorder ts)) by now inversion Hnd.
      assert (Hdone_n : mem n (flat_map preorder done) = false).
      { apply mem_not_In. intros H. apply Hin_n. rewrite Ets, flat_map_app. apply in_app_iff. now left. }
      assert (Hsplit : NoDup (flat_map preorder done ++ preorder c ++ flat_map preorder rest)).
      { inversion Hnd; subst. rewrite flat_map_app in H2. cbn in H2. exact H2. }
      assert (Hdis_cd : forall x, In x (preorder c) -> ~ In x (flat_map preorder done)).
      { intros x Hx Hd. clear - Hsplit Hx Hd. induction (flat_map preorder done) as [|y l IHl]; [easy|].
        cbn in Hsplit. inversion Hsplit; subst. destruct Hd as [->|Hd]; [|auto].
        apply H1. apply in_app_iff. right. apply in_app_iff. now left. }
      assert (Hdis_rd : forall x, In x (map t_node (c :: rest)) -> ~ In x (flat_map preorder done)).
      { intros x Hx Hd. apply in_map_iff in Hx. destruct Hx as (t & <- & Ht).
        clear - Hsplit Ht Hd. induction (flat_map preorder done) as [|y l IHl]; [easy|].
        cbn in Hsplit. inversion Hsplit; subst. destruct Hd as [->|Hd]; [|auto].
        apply H1. apply in_app_iff. right. apply in_app_iff. destruct Ht as [->|Ht].
        - left. apply preorder_self.
        - right. apply in_flat_map. exists t. split; [easy|apply preorder_self]. }
      assert (Hch : children_of (f_prune (flat_map preorder done) F) n = map t_node (c :: rest)).
      { cbn. rewrite Hdone_n, E, Ets, map_app. unfold without. rewrite filter_app.
        replace (filter _ (map t_node done)) with (@nil nid).
        - cbn [app]. now apply without_none.
        - symmetry. clear. induction done as [|t done IHd]; [easy|]. cbn.
          replace (mem (t_node t) _) with true.
          + cbn. rewrite <- IHd at 1. 
            assert (Hw : forall l, (forall x, In x l -> In x (map t_node done)) ->
              filter (fun x => negb (mem x (preorder t ++ flat_map preorder done))) l = []).
            { clear. induction l as [|x l IHl]; intros H; [easy|]. cbn.
              replace (mem x (preorder t ++ flat_map preorder done)) with true.
              - cbn. apply IHl. intros y Hy. apply H. now right.
              - symmetry. apply mem_In, in_app_iff. right. specialize (H x (or_introl eq_refl)).
                apply in_map_iff in H. destruct H as (u & <- & Hu). apply in_flat_map. exists u.
                split; [easy|apply preorder_self]. }
            rewrite (Hw (map t_node done)); [|easy]. now rewrite IHd.
          + symmetry. apply mem_In, in_app_iff. left. apply preorder_self. }
      assert (HR2 : Rep (lk D2) (f_prune (flat_map preorder done) F)) by apply HI2.
      pose proof (children_good (lk D2) _ n HR2) as Hgood. rewrite Hch in Hgood.
      assert (Hlast : last_error (map t_node ts) = last_error (map t_node (c :: rest))).
      { rewrite Ets, map_app. unfold last_error. rewrite rev_app_distr.
        destruct (rev (map t_node (c :: rest))) eqn:Er; [|reflexivity].
        apply (f_equal (@length nid)) in Er. rewrite rev_length in Er. cbn in Er. lia. }
      destruct (last_error (map t_node (c :: rest))) as [b|] eqn:Eb.
      2:{ apply last_error_none in Eb. easy. }
      unfold children_next, children_finished. cbn [c_back c_next map hd_error].
      rewrite Hlast. rewrite (proj1 (proj2 Hgood) b Eb). cbn [onid_eqb].
      destruct (good_split _ _ _ [] (t_node c) (map t_node rest) Hgood eq_refl) as (Hnx & _).
      rewrite Hnx.
      (* remove the child *)
      assert (Hc_in : In c ts) by (rewrite Ets; apply in_app_iff; right; now left).
      rewrite Forall_forall in IH, Hall.
      assert (Hatc : tree_at (f_prune (flat_map preorder done) F) c).
      { apply tree_at_prune; [now apply Hall|exact Hdis_cd]. }
      assert (Hsz : length (preorder c) < fuel).
      { pose proof (kid_size (T n ts) c Hc_in). cbn [preorder length] in *. lia. }
      destruct (IH c Hc_in fuel D2 _ HI2 Hatc Hsz) as (D3 & -> & HI3 & Hrm3). cbn [bind].
      rewrite <- Hlast.
      specialize (IHr (done ++ [c])). rewrite <- app_assoc in IHr. cbn [app] in IHr.
      specialize (IHr Ets fuel' D3 ltac:(cbn in Hf'; lia)).
      rewrite flat_map_app in IHr. cbn [flat_map] in IHr. rewrite app_nil_r in IHr.
      apply IHr.
      + destruct HI3 as (HR3 & HL3 & HS3). split; [|now split].
        eapply Rep_ext; [apply f_prune_prune|exact HR3].
      + now apply (removed_app _ _ D1 D2 D3). }
  assert (Hc0 : children (lk D1) n = mkChildren (hd_error (map t_node ts)) (last_error (map t_node ts))).
  { unfold children, first_child, last_child. now rewrite (r_first _ _ R1), (r_last _ _ R1), E. }
  rewrite Hc0.
  assert (Hkl : length ts < fuel).
  { pose proof (kids_length (T n ts)). cbn [t_kids preorder length] in *. lia. }
  destruct (Hloop ts [] eq_refl fuel D1 Hkl) as (D3 & -> & (R3 & I3 & S3) & Hrm3).
  { split; [|now split]. eapply Rep_ext; [apply forest_eq_sym, f_prune_nil|exact R1]. }
  { apply removed_nil. }
  cbn [bind].
  assert (A3 : parent_of (f_prune (flat_map preorder ts) F) n <> Some n).
  { pose proof (tree_parent_neq F (T n ts) W Hat) as Hne. cbn in Hne |- *. now destruct (mem n _). }
  destruct (remove_finish_spec n D3 _ R3 A3 S3) as (D4 & -> & R4 & S4 & Hfr & Hro & Hfields).
  exists D4. split; [reflexivity|].
  assert (Hleaf : children_of (f_prune (flat_map preorder ts) F) n = []).
  { cbn. destruct (mem n _) eqn:Em; [easy|]. rewrite E. unfold without.
    assert (forall l, (forall x, In x l -> In x (map t_node ts)) ->
      filter (fun x => negb (mem x (flat_map preorder ts))) l = []).
    { induction l as [|x l IHl]; intros H; [easy|]. cbn.
      replace (mem x (flat_map preorder ts)) with true.
      - cbn. apply IHl. intros y Hy. apply H. now right.
      - symmetry. apply mem_In. specialize (H x (or_introl eq_refl)).
        apply in_map_iff in H. destruct H as (u & <- & Hu). apply in_flat_map. exists u.
        split; [easy|apply preorder_self]. }
    now apply H. }
  assert (Heq : forest_eq (f_detach n (f_prune (flat_map preorder ts) F)) (f_prune (preorder (T n ts)) F)).
  { eapply forest_eq_trans; [apply f_detach_leaf; exact Hleaf|].
    eapply forest_eq_trans; [apply f_prune_prune|]. apply f_prune_set. intros x. cbn.
    rewrite in_app_iff. cbn. tauto. }
  split.
  - split; [|split].
    + eapply Rep_ext; [exact Heq|exact R4].
    + apply (LInv_ext D3 D4 I3); intros m; apply Hfields.
    + exact S4.
  - (* combine the three phases *)
    apply (removed_set (n :: flat_map preorder ts)); [easy|].
    assert (Hall13 : forall m, node_type D3 m = node_type D1 m) by (apply Hrm3).
    split.
    + rewrite Hfr, (rv_fresh _ _ _ Hrm3). apply Hf1.
    + rewrite Hro, (rv_root _ _ _ Hrm3). apply Hf1.
    + intros m. rewrite (proj1 (Hfields m)), (rv_type _ _ _ Hrm3). apply Hf1.
    + intros m. rewrite (proj1 (proj2 (Hfields m))), (rv_tag _ _ _ Hrm3). apply Hf1.
    + intros m. rewrite (proj1 (proj2 (proj2 (Hfields m)))), (rv_id _ _ _ Hrm3). apply Hf1.
    + intros m. rewrite (proj1 (proj2 (proj2 (proj2 (Hfields m))))), (rv_text _ _ _ Hrm3). apply Hf1.
    + intros m. destruct (Hfields m) as (_ & _ & _ & _ & _ & _ & _ & ->). rewrite mem_cons.
      destruct (Nat.eqb m n); cbn [orb]; [easy|]. rewrite (rv_key _ _ _ Hrm3), (fr_key _ _ Hf1). easy.
    + intros x. destruct (Hfields x) as (_ & _ & _ & _ & -> & _).
      rewrite (rv_attrs _ _ _ Hrm3), Ha1, filter_filter. apply filter_ext. intros a.
      unfold cut. rewrite !mem_cons. destruct (svg_link a); [|easy]. cbn [andb].
      destruct (link_target (a_value a)) as [t|]; rewrite ?mem_cons;
        change (mem x []) with false; try change (mem t []) with false;
        destruct (Nat.eqb x n), (mem x (flat_map preorder ts)); cbn; try easy;
        destruct (Nat.eqb t n), (mem t (flat_map preorder ts)); easy.
    + intros p b Hp Hb. destruct (Hfields b) as (_ & _ & _ & _ & _ & -> & _).
      rewrite (rv_linked _ _ _ Hrm3).
      * apply Hl1; [apply Hp; now left|]. intros ->. apply Hb. now left.
      * intros s Hs'. apply Hp. now right.
      * intros H. apply Hb. now right.
    + intros m. destruct (Hfields m) as (_ & _ & _ & _ & _ & _ & -> & _).
      rewrite (rv_lroot _ _ _ Hrm3). now rewrite (fr_lk _ _ Hf1).
Qed.
