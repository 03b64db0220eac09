(* descendants() while the user holds guards: which nodes next() borrows. *)
From Coq Require Import List Bool PeanoNat Lia.
From Verif Require Import Base Links Tree Iter ForestSpec ListFacts TreeProofs ForestFacts IterSpec IterProofs
  Data Attrs Slab NodeApi Doc Loops Guards GuardDoc GuardIter GuardSpec GuardIterSpec GuardIterProofs.
Import ListNotations.

Section Desc.
  Context (L : links) (F : forest) (t : tree) (R : Rep L F) (Hat : tree_at F t).
  Notation root := (t_node t).

  Lemma at_next pre e post : edges t = pre ++ e :: post -> next_item L root e = hd_error post.
  Proof. intros E. exact (proj1 (good_split _ _ _ pre e post (traverse_good L F t R Hat) E)). Qed.

  Lemma edge_in pre e post : edges t = pre ++ e :: post -> In (edge_node e) (preorder t).
  Proof. intros E. apply edges_In. rewrite E. apply in_app_iff. right. now left. Qed.

  Lemma no_loop k q : In q (preorder t) -> parent_of F k = Some q -> anc_or_self F k q -> False.
  Proof.
    intros Hq Hp Ha. destruct (subtree_at F t q Hat Hq) as (u & <- & Hu & _).
    exact (tree_no_loop F u k (r_wf L F R) Hu Ha Hp).
  Qed.
  Lemma up_in k q : In k (preorder t) -> k <> root -> parent_of F k = Some q -> In q (preorder t).
  Proof.
    intros Hk Hn Hp. apply (preorder_iff F t _ (r_wf L F R) Hat) in Hk.
    apply (preorder_iff F t _ (r_wf L F R) Hat). inversion Hk as [|? ? p Hp' Hk']; subst; [easy|].
    rewrite Hp in Hp'. now injection Hp' as ->.
  Qed.

  (* a row of ends goes up *)
  Lemma closing cs : forall c pre post, edges t = pre ++ map End (c :: cs) ++ post ->
    exists k, final (c :: cs) = Some k /\ In k (preorder t) /\
      (exists pre', edges t = pre' ++ End k :: post) /\
      (forall z, In z (c :: cs) -> anc_or_self F z c /\ anc_or_self F k z /\ In z (preorder t)) /\
      (forall z, anc_or_self F z c -> In z (c :: cs) \/ exists q, parent_of F k = Some q /\ anc_or_self F z q).
  Proof.
    induction cs as [|c' cs IH]; intros c pre post E.
    - cbn [map app] in E. exists c. split; [reflexivity|]. split; [exact (edge_in _ _ _ E)|].
      split; [exists pre; exact E|]. split.
      + intros z [<-|[]]. split; [constructor|]. split; [constructor|exact (edge_in _ _ _ E)].
      + intros z H. inversion H as [|? ? q Hq H']; subst; [left; now left|]. right. exists q. now split.
    - pose proof E as E1. cbn [map app] in E1. pose proof (at_next _ _ _ E1) as Hn. cbn [hd_error next_item] in Hn.
      destruct (Nat.eqb_spec c root) as [_|Hc]; [discriminate|].
      destruct (next_sibling L c); [discriminate|].
      destruct (parent L c) as [p|] eqn:Hp; [|discriminate]. injection Hn as ->.
      unfold parent in Hp. rewrite (r_parent L F R) in Hp.
      destruct (IH c' (pre ++ [End c]) post) as (k & Hk & Hkt & Hpre & H1 & H2).
      { rewrite <- app_assoc. exact E1. }
      exists k. split; [|split; [exact Hkt|split; [exact Hpre|split]]].
      + unfold final in *. cbn [rev] in *. rewrite <- Hk. destruct (rev cs ++ [c']) eqn:Ec; [|reflexivity].
        now destruct (rev cs).
      + intros z [<-|Hz].
        * split; [constructor|]. split; [|exact (edge_in _ _ _ E1)]. apply (aos_up F k c c' Hp). apply H1. now left.
        * destruct (H1 z Hz) as (A & B & C). split; [|now split]. exact (aos_up F z c c' Hp A).
      + intros z H. inversion H as [|? ? q Hq H']; subst; [left; now left|].
        rewrite Hp in Hq. injection Hq as <-. destruct (H2 z H') as [Hz|Hz]; [left; now right|now right].
  Qed.

  Lemma after_start pre y c cs post : edges t = pre ++ Start y :: map End (c :: cs) ++ post -> c = y.
  Proof.
    intros E. pose proof (at_next _ _ _ E) as Hn. cbn [next_item map app hd_error] in Hn.
    destruct (first_child L y); [discriminate|]. now injection Hn as ->.
  Qed.

  Lemma left_next pre y cs x post : edges t = pre ++ Start y :: map End cs ++ Start x :: post ->
    forall z, In z cs <-> anc_or_self F z y /\ anc_or_self F root z /\ ~ anc_or_self F z x.
  Proof.
    intros E z. destruct cs as [|c cs].
    - cbn [map app] in E. pose proof (at_next _ _ _ E) as Hn. cbn [next_item hd_error] in Hn.
      destruct (first_child L y) as [f|] eqn:Hf; [|discriminate]. injection Hn as ->.
      unfold first_child in Hf. rewrite (r_first L F R) in Hf. apply hd_error_In in Hf.
      apply (wf_child F (r_wf L F R)) in Hf. split; [intros []|]. intros (H & _ & Hx). apply Hx.
      exact (aos_up F z x y Hf H).
    - assert (c = y) by exact (after_start _ _ _ _ _ E). subst c.
      destruct (closing cs y (pre ++ [Start y]) (Start x :: post)) as (k & _ & Hkt & (pre' & Ek) & H1 & H2).
      { rewrite <- app_assoc. exact E. }
      pose proof (at_next _ _ _ Ek) as Hn. cbn [next_item hd_error] in Hn.
      destruct (Nat.eqb_spec k root) as [_|Hk]; [discriminate|].
      destruct (next_sibling L k) as [s|] eqn:Hs; [|destruct (parent L k); discriminate].
      injection Hn as ->. unfold next_sibling in Hs. rewrite (r_next L F R) in Hs.
      pose proof (succ_in_neq _ _ _ (wf_nodup F (r_wf L F R) k) Hs) as Hne.
      apply succ_in_In in Hs. destruct (wf_share F (r_wf L F R) k x (proj2 Hs)) as [_ Hpx].
      assert (Hq : exists q, parent_of F k = Some q /\ In q (preorder t)).
      { pose proof (proj1 (preorder_iff F t k (r_wf L F R) Hat) Hkt) as Hr.
        inversion Hr as [|? ? q Hp' _]; subst; [easy|]. exists q. split; [exact Hp'|]. exact (up_in k q Hkt Hk Hp'). }
      destruct Hq as (q & Hq & Hqt). rewrite Hq in Hpx. split.
      + intros Hz. destruct (H1 z Hz) as (A & B & C). split; [exact A|].
        split; [now apply (preorder_iff F t z (r_wf L F R) Hat)|]. intros Hx.
        assert (Hkx : anc_or_self F k x) by exact (anc_trans F k z x B Hx).
        inversion Hkx as [|? ? q' Hq' Hkq]; subst; [easy|]. rewrite Hpx in Hq'. injection Hq' as <-.
        exact (no_loop k q Hqt Hq Hkq).
      + intros (A & _ & Hx). destruct (H2 z A) as [Hz|(q' & Hq' & Hz)]; [exact Hz|]. exfalso. apply Hx.
        rewrite Hq in Hq'. injection Hq' as <-. exact (aos_up F z x q Hpx Hz).
  Qed.

  Lemma left_end pre y cs : edges t = pre ++ Start y :: map End cs ->
    forall z, In z cs <-> anc_or_self F z y /\ anc_or_self F root z.
  Proof.
    intros E z. destruct cs as [|c cs].
    - exfalso. cbn [map] in E. pose proof (edges_last t) as H. rewrite E, rev_app_distr in H. discriminate.
    - assert (E0 : edges t = pre ++ Start y :: map End (c :: cs) ++ []) by now rewrite app_nil_r.
      assert (c = y) by exact (after_start _ _ _ _ _ E0). subst c.
      destruct (closing cs y (pre ++ [Start y]) []) as (k & Hfin & Hkt & (pre' & Ek) & H1 & H2).
      { rewrite <- app_assoc. exact E0. }
      assert (k = root).
      { pose proof (edges_last t) as H. rewrite Ek, rev_app_distr in H. now injection H as ->. }
      subst k. split.
      + intros Hz. destruct (H1 z Hz) as (A & B & C). now split.
      + intros (A & B). destruct (H2 z A) as [Hz|(q & Hq & Hz)]; [exact Hz|]. exfalso.
        assert (Hrq : anc_or_self F root q) by exact (anc_trans F root z q B Hz).
        apply (no_loop root q); [|exact Hq|exact Hrq]. now apply (preorder_iff F t q (r_wf L F R) Hat).
  Qed.

  (* one call of next() *)
  Lemma desc_next_eq g : forall cs fuel pre it, length cs < fuel ->
    (forall x post, t_state L t pre (map End cs ++ Start x :: post) it ->
       exists it', descendants_next fuel L it = Ok (Some x, it') /\
         t_state L t (pre ++ map End cs ++ [Start x]) post it' /\
         g_descendants_next fuel g L it =
         if existsb (stops g root) (map End cs ++ [Start x]) then Panic PBorrow else Ok (Some x, it')) /\
    (t_state L t pre (map End cs) it ->
       exists it', descendants_next fuel L it = Ok (None, it') /\
         g_descendants_next fuel g L it =
         if existsb (stops g root) (map End cs) then Panic PBorrow else Ok (None, it')).
  Proof.
    assert (One : forall pre e post it, t_state L t pre (e :: post) it ->
      exists it', traverse_next L it = (Some e, it') /\ t_state L t (pre ++ [e]) post it' /\
        g_traverse_next g L it = if stops g root e then Panic PBorrow else Ok (Some e, it')).
    { intros pre e post it Hs. pose proof (traverse_next_spec L F t pre (e :: post) it R Hat Hs) as H.
      destruct H as (it' & E & Hs'). exists it'. split; [exact E|]. split; [exact Hs'|].
      rewrite g_traverse_next_eq, E. destruct Hs as (_ & ->). cbn [t_root t_next t_back ostops hd_error stops].
      rewrite Nat.eqb_refl. cbn [negb andb orb]. unfold traverse_next in E.
      destruct (traverse_finished L _); [discriminate|]. reflexivity. }
    induction cs as [|c cs IH]; intros fuel pre it Hf; (destruct fuel as [|fuel]; [lia|]).
    - split.
      + intros x post Hs. cbn [map app] in *. destruct (One _ _ _ _ Hs) as (it' & E & Hs' & Eg).
        exists it'. cbn [descendants_next g_descendants_next]. rewrite E, Eg. split; [reflexivity|].
        split; [exact Hs'|]. cbn [existsb]. rewrite orb_false_r. destruct (stops g root (Start x)); reflexivity.
      + intros Hs. cbn [map] in *. pose proof (traverse_next_spec L F t pre [] it R Hat Hs) as E. cbn in E.
        exists it. cbn [descendants_next g_descendants_next]. rewrite g_traverse_next_eq, E. split; [reflexivity|].
        destruct Hs as (_ & ->). cbn [t_root t_next t_back ostops hd_error stops existsb].
        rewrite Nat.eqb_refl. cbn [negb andb orb]. rewrite andb_false_r. reflexivity.
    - cbn [length] in Hf. assert (Hf' : length cs < fuel) by lia. split.
      + intros x post Hs. cbn [map app] in *. destruct (One _ _ _ _ Hs) as (it1 & E & Hs1 & Eg).
        destruct (proj1 (IH fuel _ it1 Hf') x post Hs1) as (it' & E' & Hs' & Eg').
        exists it'. cbn [descendants_next g_descendants_next]. rewrite E, Eg. split; [exact E'|].
        split; [rewrite <- app_assoc in Hs'; exact Hs'|]. cbn [existsb].
        destruct (stops g root (End c)); [reflexivity|]. cbn [bind orb]. exact Eg'.
      + intros Hs. cbn [map] in *. destruct (One _ _ _ _ Hs) as (it1 & E & Hs1 & Eg).
        destruct (proj2 (IH fuel _ it1 Hf') Hs1) as (it' & E' & Eg').
        exists it'. cbn [descendants_next g_descendants_next]. rewrite E, Eg. split; [exact E'|]. cbn [existsb].
        destruct (stops g root (End c)); [reflexivity|]. cbn [bind orb]. exact Eg'.
  Qed.

  Lemma ends_first (l : list edge) : exists cs, l = map End cs /\ starts l = [] \/
    exists x post, l = map End cs ++ Start x :: post /\ starts l = x :: starts post.
  Proof.
    induction l as [|[x|x] l (cs & IH)].
    - exists []. now left.
    - exists []. right. exists x, l. now split.
    - exists (x :: cs). destruct IH as [(-> & E)|(y & post & -> & E)].
      + left. now split.
      + right. exists y, post. now split.
  Qed.

  Lemma desc_walk_at fuel front rest it : length (edges t) < fuel ->
    descendants_walk L fuel root (preorder t) front rest it ->
    exists pre mid, t_state L t pre mid it /\ starts mid = rest /\
      (front = [] /\ pre = [] \/ exists y pre', final front = Some y /\ pre = pre' ++ [Start y]).
  Proof.
    intros Hf H. induction H as [|front x rest it it' H IH E].
    - exists [], (edges t). split; [|split; [apply starts_edges|left; now split]].
      split; [reflexivity|]. now rewrite edges_hd.
    - destruct IH as (pre & mid & Hs & Hm & _).
      destruct (ends_first mid) as (cs & [(-> & E0)|(y & post & -> & E0)]); rewrite E0 in Hm; [discriminate|].
      injection Hm as -> Hp. pose proof Hs as Hs'. destruct Hs' as (El & _).
      destruct (proj1 (desc_next_eq no_guards cs fuel pre it ltac:(
        apply (f_equal (@length edge)) in El; rewrite !app_length, map_length in El; cbn in El; lia)) x post Hs)
        as (it2 & E2 & Hs2 & _).
      rewrite E in E2. injection E2 as <-. exists (pre ++ map End cs ++ [Start x]), post.
      split; [exact Hs2|]. split; [exact Hp|]. right. exists x, (pre ++ map End cs). split.
      + unfold final. now rewrite rev_unit.
      + now rewrite app_assoc.
  Qed.

  Lemma stops_ends g cs : existsb (stops g root) (map End cs) = true <->
    exists z, In z cs /\ z <> root /\ held_mut g z.
  Proof.
    rewrite existsb_exists. split.
    - intros (e & He & Hs). apply in_map_iff in He. destruct He as (z & <- & Hz). apply stops_iff in Hs.
      exists z. split; [exact Hz|]. split; [|apply Hs]. intros ->. now apply (proj2 Hs).
    - intros (z & Hz & Hn & Hh). exists (End z). split; [now apply in_map|]. apply stops_iff.
      split; [exact Hh|]. now intros [= ->].
  Qed.

  Theorem descendants_next_guards g fuel front rest it : length (edges t) < fuel ->
    descendants_walk L fuel root (preorder t) front rest it ->
    exists it', descendants_next fuel L it = Ok (hd_error rest, it') /\
      same_unless (descendants_stuck F g root front rest) (Ok (hd_error rest, it'))
        (g_descendants_next fuel g L it).
  Proof.
    intros Hf H. destruct (desc_walk_at fuel front rest it Hf H) as (pre & mid & Hs & Hm & Hp).
    destruct (ends_first mid) as (cs & [(-> & E0)|(x & post & -> & E0)]); rewrite E0 in Hm; subst rest.
    - pose proof Hs as (El & _).
      assert (Hl : length cs < fuel).
      { apply (f_equal (@length edge)) in El; rewrite !app_length, map_length in El; cbn in El; lia. }
      destruct (proj2 (desc_next_eq g cs fuel pre it Hl) Hs) as (it' & E & Eg).
      exists it'. split; [exact E|]. eapply unless_if; [|exact Eg]. rewrite stops_ends.
      unfold descendants_stuck. cbn [hd_error].
      destruct Hp as [(-> & ->)|(y & pre' & Hy & ->)].
      + split.
        * intros (z & Hz & _). exfalso. cbn [app] in El. destruct cs as [|c cs]; [destruct Hz|].
          pose proof (edges_hd t) as Hh. rewrite El in Hh. discriminate.
        * intros (c & _ & [[=]|(y & [=] & _)]).
      + rewrite <- app_assoc in El. cbn [app] in El. pose proof (left_end _ _ _ El) as Hz. split.
        * intros (z & Hz1 & Hz2 & Hz3). exists z. split; [exact Hz3|]. right. exists y. split; [exact Hy|].
          apply Hz in Hz1. split; [apply Hz1|]. split; [apply Hz1|exact Hz2].
        * intros (c & Hc & [[=]|(y' & Hy' & A & B & C)]). rewrite Hy in Hy'. injection Hy' as <-.
          exists c. split; [apply Hz; now split|]. split; [exact C|exact Hc].
    - pose proof Hs as (El & _).
      assert (Hl : length cs < fuel).
      { apply (f_equal (@length edge)) in El; rewrite !app_length, map_length in El; cbn in El; lia. }
      destruct (proj1 (desc_next_eq g cs fuel pre it Hl) x post Hs) as (it' & E & _ & Eg).
      exists it'. cbn [hd_error]. split; [exact E|]. eapply unless_if; [|exact Eg].
      rewrite existsb_app, orb_true_iff, stops_ends. cbn [existsb stops]. rewrite orb_false_r, hm_iff.
      unfold descendants_stuck. cbn [hd_error].
      destruct Hp as [(-> & ->)|(y & pre' & Hy & ->)].
      + split.
        * intros [(z & Hz & _)|Hx].
          -- exfalso. cbn [app] in El. destruct cs as [|c cs]; [destruct Hz|].
             pose proof (edges_hd t) as Hh. rewrite El in Hh. discriminate.
          -- exists x. split; [exact Hx|now left].
        * intros (c & Hc & [[= ->]|(y & [=] & _)]). now right.
      + rewrite <- app_assoc in El. cbn [app] in El. pose proof (left_next _ _ _ _ _ El) as Hz. split.
        * intros [(z & Hz1 & Hz2 & Hz3)|Hx].
          -- exists z. split; [exact Hz3|]. right. exists y. split; [exact Hy|].
             apply Hz in Hz1. exact Hz1.
          -- exists x. split; [exact Hx|now left].
        * intros (c & Hc & [[= ->]|(y' & Hy' & A & B & C)]); [now right|left].
          rewrite Hy in Hy'. injection Hy' as <-.
          exists c. split; [apply Hz; now split|]. split; [|exact Hc]. intros ->. apply C.
          apply (preorder_anc F t x (r_wf L F R) Hat).
          apply (edge_in ((pre' ++ Start y :: map End cs)) (Start x) post). rewrite <- app_assoc. exact El.
  Qed.

  (* the whole loop *)
  Lemma desc_collect_eq g : forall fuel pre mid it, t_state L t pre mid it -> length mid < fuel ->
    g_descendants_collect fuel g L it =
    if existsb (stops g root) mid then Panic PBorrow else Ok (starts mid).
  Proof.
    induction fuel as [|fuel IH]; intros pre mid it Hs Hf; [lia|]. cbn [g_descendants_collect].
    destruct (ends_first mid) as (cs & [(-> & E0)|(x & post & -> & E0)]); rewrite E0.
    - rewrite map_length in Hf. destruct (proj2 (desc_next_eq g cs (S fuel) pre it Hf) Hs) as (it' & _ & Eg).
      rewrite Eg. destruct (existsb _ _); reflexivity.
    - rewrite app_length, map_length in Hf. cbn [length] in Hf.
      assert (Hf' : length cs < S fuel) by lia.
      destruct (proj1 (desc_next_eq g cs (S fuel) pre it Hf') x post Hs) as (it' & _ & Hs' & Eg).
      rewrite Eg, !existsb_app. cbn [existsb]. rewrite orb_false_r.
      destruct (existsb (stops g root) (map End cs)); [reflexivity|]. cbn [orb].
      destruct (stops g root (Start x)); [reflexivity|]. cbn [bind orb].
      rewrite (IH _ _ _ Hs'); [|lia]. destruct (existsb _ post); reflexivity.
  Qed.

  Theorem descendants_guards g fuel : length (edges t) < fuel ->
    same_unless (some_held g (preorder t)) (Ok (preorder t)) (g_descendants fuel g L root).
  Proof.
    intros Hf. apply (unless_if _ (existsb (stops g root) (edges t))); [apply stops_edges|].
    rewrite <- starts_edges. unfold g_descendants. apply (desc_collect_eq g fuel [] (edges t)); [|exact Hf].
    split; [reflexivity|]. now rewrite edges_hd.
  Qed.
End Desc.
