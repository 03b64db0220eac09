(* Proofs about copy_node_deep under guards. *)
From Coq Require Import List Bool PeanoNat NArith Lia.
From Verif Require Import Base Ids Links Tree Iter ForestSpec TreeSpec ListFacts TreeProofs ForestFacts IterSpec IterProofs
  PruneFacts TreeApi Data Attrs AttrFacts Slab SlabProofs NodeApi AttrSpec Doc DocSpec History LinkProofs RemoveProofs InvProofs
  CopyProofs HistoryProofs ApiProofs Guards GuardSpec GuardTree GuardProofs GuardDoc GuardDocSpec GuardDocProofs.
Import ListNotations.

Definition copy_stop (g : guards) (D : dom) (n : nid) : Prop :=
  held_mut g n \/ node_type D n = NElement /\ exists a t, In a (attributes D n) /\ link_target (a_value a) = Some t /\ held g t.
Definition copy_hit (g : guards) (S : list nid) (D : dom) : Prop := exists n, In n S /\ copy_stop g D n.

Lemma copy_stop_grown g S D D' n : grown S D D' -> n < fresh D -> copy_stop g D' n <-> copy_stop g D n.
Proof. intros G Hn. unfold copy_stop. now rewrite (gr_type _ _ _ G), (gr_attr _ _ _ G) by exact Hn. Qed.
Lemma copy_hit_grown g S0 S D D' : grown S0 D D' -> (forall x, In x S -> x < fresh D) -> copy_hit g S D' <-> copy_hit g S D.
Proof.
  intros G H. unfold copy_hit. split; intros (n & Hn & Hs); exists n; (split; [exact Hn|]); now apply (copy_stop_grown g S0 D D' n G (H n Hn)).
Qed.
Lemma copy_stop_dec g D n : copy_stop g D n \/ ~ copy_stop g D n.
Proof.
  unfold copy_stop. destruct (held_mut_dec g n) as [|Hm]; [tauto|]. destruct (ntype_eqb (node_type D n) NElement) eqn:Et.
  - apply ntype_eqb_eq in Et.
    assert (H : forall l, (exists a t, In a l /\ link_target (a_value a) = Some t /\ held g t) \/
      ~ exists a t, In a l /\ link_target (a_value a) = Some t /\ held g t).
    { induction l as [|b l [(a & t & Ha & H)|IH]]; [right; now intros (a & t & [] & _)|left; exists a, t; split; [now right|easy]|].
      destruct (link_target (a_value b)) as [t|] eqn:Eb.
      - destruct (held_dec g t) as [Ht|Ht]; [left; exists b, t; split; [now left|easy]|].
        right. intros (a & u & [<-|Ha] & H1 & H2); [congruence|]. apply IH. now exists a, u.
      - right. intros (a & u & [<-|Ha] & H1 & H2); [congruence|]. apply IH. now exists a, u. }
    destruct (H (attributes D n)); tauto.
  - right. intros [H|(H & _)]; [easy|]. rewrite H in Et. discriminate.
Qed.
Lemma copy_bounds g n D F r : InvF D F -> n < fresh D -> (forall x, held g x -> x < fresh D) -> copy_node n D = Ok r ->
  bounds (copy_stop g D n) (copy_stop g D n) r (g_copy_node g n D).
Proof.
  intros I Hn Hg E. destruct (g_copy_node_inv g n D F I Hn Hg) as (A & _ & C). cbv zeta in A, C.
  assert (H : copy_stop g D n <-> held_mut g n \/
    exists a t, node_type D n = NElement /\ In a (attributes D n) /\ link_target (a_value a) = Some t /\ held g t).
  { unfold copy_stop. split; (intros [H|H]; [now left|right]).
    - destruct H as (Et & a & t & H). now exists a, t.
    - destruct H as (a & t & Et & H). split; [easy|]. now exists a, t. }
  destruct (copy_stop_dec g D n) as [Hs|Hs].
  - right. split; [apply (C r E); now apply H|exact Hs].
  - left. split; [rewrite <- E; apply A; now rewrite <- H|exact Hs].
Qed.
Lemma append_free g p m D F L : Rep (lk D) F -> isolated F m -> m <> p -> append [] p m (lk D) = Ok L -> Rep L (f_append p m F) ->
  (forall x, held g x -> x < m /\ x <> p /\ parent_of F x <> Some p) -> g_append g p m D = Ok (with_lk L D).
Proof.
  intros R Hi Hne E RL Hg.
  pose proof (moves_of g [] D (fun G => append G p m (lk D)) (append_guarded (all_guards g) p m (lk D) F R)) as (_ & M).
  cbn beta in M. rewrite E in M. cbn [bind] in M. apply (M _ eq_refl). intros x Hx. split; [easy|].
  destruct (Hg x Hx) as (H1 & H2 & H3). destruct (append_iso F p m (r_wf _ _ R) Hi Hne) as (_ & [G1 G2 G3]).
  apply (neighbours_nav D (with_lk L D) F (f_append p m F) x R RL). unfold nav_same, fi, la, nx, pv.
  now rewrite (G1 x H1), (G2 x H1 H2), (G3 x H1 H3).
Qed.

Theorem deep_bounds g : forall t fuel D F p,
  length (preorder t) < fuel -> InvF D F -> parent_of F p <> Some p -> tree_at F t ->
  (forall x, In x (preorder t) -> x < fresh D) -> p < fresh D -> ~ In p (preorder t) ->
  (forall x, In x (flat_map preorder (t_kids t)) -> copyable D x) ->
  (forall x, held g x -> x < fresh D /\ x <> p /\ parent_of F x <> Some p) ->
  exists D' F', make_deep_copy fuel p (t_node t) D = Ok D' /\ InvF D' F' /\ grown (flat_map preorder (t_kids t)) D D' /\
    grown_below p (fresh D) F F' /\
    bounds (copy_hit g (flat_map preorder (t_kids t)) D)
      ((exists x, In x (preorder t) /\ held_mut g x) \/ copy_hit g (flat_map preorder (t_kids t)) D) D'
      (g_make_deep_copy fuel g p (t_node t) D).
Proof.
  induction t as [n ts IH] using tree_ind'. intros fuel D F p Hfuel I HA Ht Hlt Hp Hnp Hcp Hg.
  destruct fuel as [|fuel]; [lia|]. cbn [make_deep_copy g_make_deep_copy t_node t_kids] in *.
  inversion Ht as [? ? Ek Hall]; subst.
  assert (Hpn : p <> n) by (intros ->; apply Hnp; now left).
  assert (Hn : n < fresh D) by (apply Hlt; now left).
  set (body := fun child D =>
           r <- copy_node child D ;;
           let new_node := fst r in
           L <- append [] p new_node (lk (snd r)) ;;
           let D := with_lk L (snd r) in
           if has_children (lk D) child then make_deep_copy fuel new_node child D else Ok D).
  set (gbody := fun child D =>
           r <- g_copy_node g child D ;;
           let new_node := fst r in
           D <- g_append g p new_node (snd r) ;;
           reading g child (if has_children (lk D) child then g_make_deep_copy fuel g new_node child D else Ok D)).
  set (seen := exists x, In x (preorder (T n ts)) /\ held_mut g x).
  assert (Hloop : forall cs pre fuel' D F, children_of F n = pre ++ map t_node cs -> pre ++ map t_node cs = map t_node ts ->
    length cs < fuel' -> InvF D F -> parent_of F p <> Some p -> n < fresh D -> p < fresh D ->
    (forall c, In c cs -> In c ts) -> Forall (tree_at F) cs ->
    (forall x, In x (flat_map preorder cs) -> x < fresh D /\ x <> p /\ copyable D x) ->
    (forall x, held g x -> x < fresh D /\ x <> p /\ parent_of F x <> Some p) ->
    exists D' F',
      for_children lk fuel' body (mkChildren (hd_error (map t_node cs)) (last_error (pre ++ map t_node cs))) D = Ok D' /\
      InvF D' F' /\ grown (flat_map preorder cs) D D' /\ grown_below p (fresh D) F F' /\
      bounds (copy_hit g (flat_map preorder cs) D) (seen \/ copy_hit g (flat_map preorder cs) D) D'
        (g_for_children g lk fuel' gbody (mkChildren (hd_error (map t_node cs)) (last_error (pre ++ map t_node cs))) D)).
  { clear D F I HA Ht Hlt Hp Hcp Ek Hall Hn Hg.
    induction cs as [|c cs IHcs]; intros pre fuel' D F Ek Ets Hf' I HA Hn Hp Hin Hall Hx Hg.
    - destruct fuel' as [|fuel']; [cbn in Hf'; lia|]. cbn [for_children g_for_children].
      pose proof (children_next_bounds g (lk D) (mkChildren (hd_error (map t_node [])) (last_error (pre ++ map t_node [])))) as Bn.
      rewrite (children_next_at (lk D) F n pre _ (iv_rep D F I) Ek) in *. cbn [map] in *.
      exists D, F. split; [easy|]. split; [easy|]. split; [apply grown_refl|]. split; [now split|].
      assert (Hno : ~ copy_hit g (flat_map preorder []) D) by now intros (x & [] & _).
      apply (bounds_weaken _ _ _ _ _ _ (bounds_bind _ _ _ _ _ D _ (fun r => match r with
        | (Some c, it') => s <- gbody c D ;; g_for_children g lk fuel' gbody it' s
        | (None, _) => Ok D end) Bn (bounds_ok _ False D Hno))); [now right|].
      intros [(b & Hb & Hm)|[]]. left. exists b. split; [|easy]. cbn [c_back c_next hd_error] in Hb.
      destruct Hb as [Hb|Hb]; [|discriminate]. rewrite Ets in Hb. apply last_error_In, in_map_iff in Hb.
      destruct Hb as (t & <- & Ht). right. apply in_flat_map. exists t. split; [easy|apply preorder_self].
    - destruct fuel' as [|fuel']; [cbn in Hf'; lia|]. cbn [for_children g_for_children].
      pose proof (children_next_bounds g (lk D) (mkChildren (hd_error (map t_node (c :: cs))) (last_error (pre ++ map t_node (c :: cs))))) as Bn.
      rewrite (children_next_at (lk D) F n pre _ (iv_rep D F I) Ek) in *. cbn [map] in *.
      inversion Hall as [|? ? Hc Hcs]; subst.
      assert (Hcx : forall x, In x (preorder c) -> x < fresh D /\ x <> p /\ copyable D x).
      { intros x Hxc. apply Hx. cbn. apply in_app_iff. now left. }
      assert (Hcsx : forall x, In x (flat_map preorder cs) -> x < fresh D /\ x <> p /\ copyable D x).
      { intros x Hxc. apply Hx. cbn. apply in_app_iff. now right. }
      destruct (Hcx (t_node c) (preorder_self c)) as (Hcl & Hcp & Hcc).
      (* the copy of c *)
      destruct (copy_node_spec D F (t_node c) I Hcl (proj1 Hcc) (proj2 Hcc)) as (D1 & E1 & I1 & Hlk1 & Hf1 & Hco & Hcf).
      pose proof (copy_bounds g (t_node c) D F _ I Hcl (fun x Hx => proj1 (Hg x Hx)) E1) as B1.
      set (m := fresh D) in *.
      pose proof (iv_iso D F I m (le_n _)) as Hiso.
      assert (Hmp : m <> p) by (unfold m; lia).
      destruct (append_iso_ok (lk D1) F p m (iv_rep D1 F I1) Hiso Hmp HA) as (L2 & E2 & R2).
      pose proof (append_free g p m D1 F L2 (iv_rep D1 F I1) Hiso Hmp E2 R2 Hg) as B2.
      assert (Hbody : body (t_node c) D = (let D := with_lk L2 D1 in
          if has_children (lk D) (t_node c) then make_deep_copy fuel m (t_node c) D else Ok D)).
      { unfold body. rewrite E1. cbn [bind fst snd]. rewrite E2. reflexivity. }
      set (D2 := with_lk L2 D1) in *. set (F2 := f_append p m F) in *.
      assert (I2 : InvF D2 F2) by (apply append_inv; [easy|lia|lia|easy]).
      assert (W : wf_forest F) by apply (iv_rep D F I).
      assert (HA2 : parent_of F2 m <> Some m).
      { unfold F2. rewrite parent_append by easy. rewrite Nat.eqb_refl. congruence. }
      destruct (append_iso F p m W Hiso Hmp) as (Hch2 & Hb2). fold F2 in Hch2, Hb2.
      assert (G2 : grown [t_node c] D D2).
      { destruct Hcf as [Hr0 Hf0 Hold]. split; try (intros x Hxl; destruct (Hold x Hxl) as (Q1&Q2&Q3&Q4&Q5&Q6&Q7)); try easy.
        exists (repeat m (count_links x (attributes D (t_node c)))). split; [exact Q7|]. split.
        - rewrite Forall_forall. intros u Hu. apply repeat_spec in Hu. subst u. change (fresh D2) with (fresh D1). unfold m in *. lia.
        - intros Hne. destruct (count_links x (attributes D (t_node c))) eqn:Ec; [easy|].
          assert (Hpos : 0 < count_links x (attributes D (t_node c))) by lia.
          apply count_links_pos in Hpos. destruct Hpos as (a & Ha & Ht). exists (t_node c), a.
          split; [now left|]. easy. }
      assert (Hf2 : fresh D2 = S m) by exact Hf1.
      (* its subtree *)
      set (KH := copy_hit g (flat_map preorder (t_kids c)) D).
      assert (H3 : exists D3 F3, body (t_node c) D = Ok D3 /\ InvF D3 F3 /\ grown (flat_map preorder (t_kids c)) D2 D3 /\
          grown_below m (fresh D2) F2 F3 /\
          bounds KH ((exists x, In x (preorder c) /\ held_mut g x) \/ KH) D3
            (if has_children (lk D2) (t_node c) then g_make_deep_copy fuel g m (t_node c) D2 else Ok D2)).
      { rewrite Hbody. cbv zeta. fold D2.
        assert (Htc2 : tree_at F2 c).
        { eapply grown_below_tree; [|exact Hb2|exact Hc]. intros x Hxc. destruct (Hcx x Hxc) as (? & ? & _).
          unfold m. easy. }
        assert (Hk2 : children_of F2 (t_node c) = map t_node (t_kids c)) by now apply tree_at_children.
        unfold has_children, first_child. rewrite (r_first _ _ (iv_rep D2 F2 I2)), Hk2.
        destruct (hd_error (map t_node (t_kids c))) as [c0|] eqn:Eh.
        - rewrite Forall_forall in IH.
          destruct (IH c) with (fuel := fuel) (D := D2) (F := F2) (p := m) as (D3 & F3 & X1 & X2 & X3 & X4 & X5);
            [apply Hin; now left| |easy|easy|easy| | | | | |].
          + pose proof (kid_size (T n ts) c (Hin c (or_introl eq_refl))). cbn [preorder length] in *. lia.
          + intros x Hxc. destruct (Hcx x Hxc). lia.
          + lia.
          + intros Hxc. destruct (Hcx m Hxc). unfold m in *. lia.
          + intros x Hxc. assert (Hx' : In x (preorder c)) by (destruct c; now right).
            destruct (Hcx x Hx') as (? & ? & ?). now apply (copyable_grown [t_node c] D D2 F).
          + intros x Hxh. destruct (Hg x Hxh) as (Hl & Hxp & Hxq). split; [lia|]. split; [unfold m in *; lia|].
            rewrite (gb_parent _ _ _ _ Hb2) by exact Hl. intros Hpar. apply (parent_child F W) in Hpar.
            destruct Hiso as (_ & _ & Hnil). now rewrite Hnil in Hpar.
          + exists D3, F3. do 4 (split; [easy|]).
            assert (HK : copy_hit g (flat_map preorder (t_kids c)) D2 <-> KH).
            { apply (copy_hit_grown g [t_node c]); [easy|]. intros x Hxc.
              assert (Hx' : In x (preorder c)) by (destruct c; now right). now apply Hcx. }
            apply (bounds_weaken _ _ _ _ _ _ X5); rewrite HK; tauto.
        - assert (Ek0 : t_kids c = []) by (destruct (t_kids c); [easy|discriminate]).
          exists D2, F2. split; [easy|]. split; [easy|]. split; [rewrite Ek0; apply grown_refl|]. split; [now split|].
          apply bounds_ok. unfold KH. rewrite Ek0. now intros (x & [] & _). }
      destruct H3 as (D3 & F3 & E3 & I3 & G3 & Hbb3 & B3). rewrite E3. cbn [bind].
      assert (Hg3 : grown (preorder c) D D3).
      { replace (preorder c) with ([t_node c] ++ flat_map preorder (t_kids c)) by (destruct c; easy).
        apply (grown_app _ _ D D2); [|easy|easy]. intros x Hxc. apply Hcx. destruct c. now right. }
      assert (Hle3 : fresh D2 <= fresh D3) by apply (gr_fresh _ _ _ G3).
      assert (Hch3 : forall x, x < fresh D -> x <> p -> children_of F3 x = children_of F x).
      { intros x Hxl Hxp. rewrite (gb_children _ _ _ _ Hbb3); [|lia|unfold m; lia].
        rewrite Hch2. now destruct (Nat.eqb_spec x p). }
      assert (Hb3 : grown_below p (fresh D) F F3).
      { split.
        - intros x Hxl. rewrite (gb_parent _ _ _ _ Hbb3) by lia. now apply Hb2.
        - easy.
        - intros x Hxl Hxp. rewrite (gb_siblings _ _ _ _ Hbb3); [now apply Hb2|lia|].
          rewrite (gb_parent _ _ _ _ Hb2) by easy. intros Hpar.
          apply (parent_child F W) in Hpar. destruct Hiso as (_ & _ & Hnil). rewrite Hnil in Hpar. easy. }
      destruct (IHcs (pre ++ [t_node c]) fuel' D3 F3) as (D4 & F4 & E4 & I4 & G4 & Hb4 & B4).
      + rewrite Hch3; [rewrite Ek|easy|congruence]. now rewrite <- app_assoc.
      + now rewrite <- app_assoc.
      + cbn in Hf'. lia.
      + easy.
      + rewrite (gb_parent _ _ _ _ Hb3); easy.
      + lia.
      + lia.
      + intros c1 Hc1. apply Hin. now right.
      + rewrite Forall_forall in Hcs |- *. intros c1 Hc1. eapply grown_below_tree; [|exact Hb3|now apply Hcs].
        intros x Hxc. destruct (Hcsx x) as (? & ? & _); [apply in_flat_map; now exists c1|]. easy.
      + intros x Hxc. destruct (Hcsx x Hxc) as (? & ? & ?). split; [lia|]. split; [easy|].
        now apply (copyable_grown (preorder c) D D3 F).
      + intros x Hxh. destruct (Hg x Hxh) as (Hl & Hxp & Hxq). split; [unfold m in *; lia|]. split; [easy|].
        now rewrite (gb_parent _ _ _ _ Hb3).
      + rewrite <- app_assoc in E4, B4. cbn [app] in E4, B4. rewrite E4. exists D4, F4. split; [easy|]. split; [easy|].
        split; [cbn [flat_map]; apply (grown_app _ _ D D3); [|easy|easy]; intros x Hxc; now apply Hcsx|].
        split.
        { split.
          - intros x Hxl. rewrite (gb_parent _ _ _ _ Hb4) by lia. now apply Hb3.
          - intros x Hxl Hxp. rewrite (gb_children _ _ _ _ Hb4); [|lia|easy]. now apply Hb3.
          - intros x Hxl Hxp. rewrite (gb_siblings _ _ _ _ Hb4); [now apply Hb3|lia|].
            now rewrite (gb_parent _ _ _ _ Hb3). }
        assert (HK4 : copy_hit g (flat_map preorder cs) D3 <-> copy_hit g (flat_map preorder cs) D).
        { apply (copy_hit_grown g (preorder c)); [easy|]. intros x Hxc. now apply Hcsx. }
        assert (Bb : bounds (copy_stop g D (t_node c) \/ KH) ((exists x, In x (preorder c) /\ held_mut g x) \/ copy_stop g D (t_node c) \/ KH) D3
                       (gbody (t_node c) D)).
        { unfold gbody.
          apply (bounds_weaken _ _ _ _ _ _ (bounds_bind _ _ _ _ _ D3 _ (fun r => D <- g_append g p (fst r) (snd r) ;;
             reading g (t_node c) (if has_children (lk D) (t_node c) then g_make_deep_copy fuel g (fst r) (t_node c) D else Ok D)) B1
             (bounds_bind False False _ _ D2 D3 _ (fun D => reading g (t_node c) (if has_children (lk D) (t_node c)
               then g_make_deep_copy fuel g m (t_node c) D else Ok D)) (or_introl (conj B2 (fun x => x)))
               (bounds_reading g (t_node c) _ _ _ _ B3)))).
          - tauto.
          - pose proof (preorder_self c). intros [X|[[]|[X|X]]]; [tauto| |tauto]. left. exists (t_node c). easy. }
        apply (bounds_weaken _ _ _ _ _ _ (bounds_bind _ _ _ _ _ D4 _ (fun r => match r with
          | (Some c, it') => s <- gbody c D ;; g_for_children g lk fuel' gbody it' s
          | (None, _) => Ok D end) Bn (bounds_bind _ _ _ _ _ _ _ (fun s => g_for_children g lk fuel' gbody _ s) Bb B4))).
        * intros (x & Hxi & Hs). cbn [flat_map] in Hxi. apply in_app_iff in Hxi. right. destruct Hxi as [Hxi|Hxi].
          -- left. replace (preorder c) with (t_node c :: flat_map preorder (t_kids c)) in Hxi by (destruct c; easy).
             destruct Hxi as [<-|Hxi]; [now left|]. right. now exists x.
          -- right. apply HK4. now exists x.
        * assert (Hsub : forall x, In x (preorder c) -> In x (preorder (T n ts))).
          { intros x Hxi. right. apply in_flat_map. exists c. split; [apply Hin; now left|easy]. }
          rewrite HK4. intros [(b & Hb & Hm)|[[(x & Hxi & Hm)|[Hs|(x & Hxi & Hs)]]|[Hs|(x & Hxi & Hs)]]].
          -- left. exists b. split; [|easy]. cbn [c_back c_next hd_error] in Hb. destruct Hb as [Hb|Hb].
             ++ rewrite Ets in Hb. apply last_error_In, in_map_iff in Hb.
                destruct Hb as (t & <- & Ht). right. apply in_flat_map. exists t. split; [easy|apply preorder_self].
             ++ injection Hb as <-. apply Hsub, preorder_self.
          -- left. exists x. split; [now apply Hsub|easy].
          -- right. exists (t_node c). split; [|easy]. cbn [flat_map]. apply in_app_iff. left. apply preorder_self.
          -- right. exists x. split; [|easy]. cbn [flat_map]. apply in_app_iff. left. destruct c. now right.
          -- now left.
          -- right. exists x. split; [|easy]. cbn [flat_map]. apply in_app_iff. now right. }
  destruct (Hloop ts [] fuel D F) as (D' & F' & E & I' & G' & Hb' & B'); try easy.
  - pose proof (kids_length (T n ts)). cbn [t_kids preorder length] in *. lia.
  - intros x Hx. split; [apply Hlt; now right|]. split; [|now apply Hcp]. intros ->. apply Hnp. now right.
  - assert (Hc0 : children (lk D) n = mkChildren (hd_error (map t_node ts)) (last_error ([] ++ map t_node ts))).
    { unfold children, first_child, last_child. now rewrite (r_first _ _ (iv_rep D F I)), (r_last _ _ (iv_rep D F I)), Ek. }
    exists D', F'. rewrite Hc0. split; [exact E|]. split; [easy|]. split; [easy|]. split; [easy|].
    unfold g_children. rewrite Hc0.
    apply (bounds_weaken _ _ _ _ _ _ (bounds_bind _ _ _ _ _ D' _ (fun it => g_for_children g lk fuel gbody it D)
      (bounds_reading g n False False _ _ (bounds_ok _ _ (mkChildren (hd_error (map t_node ts)) (last_error ([] ++ map t_node ts))) (fun x => x))) B')); [tauto|].
    intros [[H|[]]|[H|H]]; [left; exists n; split; [now left|easy]|now left|now right].
Qed.
