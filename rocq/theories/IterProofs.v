(* The iterators yield exactly the lists of the specification. *)
From Coq Require Import List Bool PeanoNat Lia.
From Verif Require Import Base Links Tree Iter ForestSpec ListFacts TreeProofs ForestFacts IterSpec.
Import ListNotations.

Lemma NoDup_app_r {A} (l1 l2 : list A) : NoDup (l1 ++ l2) -> NoDup l2.
Proof. induction l1; cbn; [easy|]. intros H. inversion H; subst. tauto. Qed.

Lemma last_succ_none a l : NoDup l -> last_error l = Some a -> succ_in a l = None.
Proof. intros Hn Ha. apply (succ_none_last a l Hn); [now apply last_error_In|easy]. Qed.

(* ---- a generic double-ended iterator over a chain *)
Section Chain.
  Context {A : Type} (eqb : A -> A -> bool) (eqb_eq : forall a b, eqb a b = true <-> a = b).
  Context (nxt prv : A -> option A).

  Definition oeqb (a b : option A) : bool :=
    match a, b with None, None => true | Some x, Some y => eqb x y | _, _ => false end.

  Lemma oeqb_eq a b : oeqb a b = true <-> a = b.
  Proof.
    destruct a, b; cbn; try rewrite eqb_eq; split; try easy; congruence.
  Qed.

  Fixpoint chain (l : list A) : Prop :=
    match l with
    | a :: (b :: _) as t => nxt a = Some b /\ prv b = Some a /\ chain t
    | _ => True
    end.

  Lemma chain_app l1 l2 : chain (l1 ++ l2) <->
    chain l1 /\ chain l2 /\
    (forall a b, hd_error (rev l1) = Some a -> hd_error l2 = Some b -> nxt a = Some b /\ prv b = Some a).
  Proof.
    induction l1 as [|x l1 IH]; [cbn; intuition easy|].
    destruct l1 as [|y l1].
    - destruct l2 as [|z l2]; cbn; [intuition easy|].
      split.
      + intros (H1 & H2 & H3). repeat split; try easy; intros; congruence.
      + intros (_ & H & H2). specialize (H2 _ _ eq_refl eq_refl). tauto.
    - cbn [app] in *. cbn [chain]. rewrite IH. cbn [rev].
      assert (E : hd_error (rev l1 ++ [y] ++ [x]) = hd_error (rev l1 ++ [y])).
      { destruct (rev l1); reflexivity. }
      rewrite <- app_assoc, E. tauto.
  Qed.

  Definition good (l : list A) : Prop :=
    chain l /\ (forall a, hd_error (rev l) = Some a -> nxt a = None) /\
    (forall a, hd_error l = Some a -> prv a = None).

  Lemma good_split l pre x post : good l -> l = pre ++ x :: post ->
    nxt x = hd_error post /\ prv x = hd_error (rev pre).
  Proof.
    intros (Hc & Hl & Hf) ->. apply chain_app in Hc. destruct Hc as (Hc1 & Hc2 & Hj). split.
    - destruct post as [|y post]; cbn in *.
      + apply Hl. rewrite rev_app_distr. reflexivity.
      + tauto.
    - destruct (rev pre) as [|y r] eqn:E; cbn.
      + assert (pre = []) by (rewrite <- (rev_involutive pre), E; reflexivity). subst pre.
        now apply Hf.
      + destruct (Hj y x eq_refl eq_refl). easy.
  Qed.

  (* elements are distinct: the distance to the end is a function of the element *)
  Lemma good_nodup l : good l -> NoDup l.
  Proof.
    intros (Hc & Hl & _). clear - Hc Hl.
    assert (Hlen : forall k l1 l2 x, length l1 <= k -> chain (x :: l1) -> chain (x :: l2) ->
      (forall a, hd_error (rev (x :: l1)) = Some a -> nxt a = None) ->
      (forall a, hd_error (rev (x :: l2)) = Some a -> nxt a = None) -> l1 = l2).
    { induction k as [|k IH]; intros [|a l1] [|b l2] x Hk H1 H2 L1 L2; cbn in Hk; try lia; try easy.
      - cbn in *. specialize (L1 x eq_refl). destruct H2 as (H2 & _). congruence.
      - cbn in *. specialize (L1 x eq_refl). destruct H2 as (H2 & _). congruence.
      - cbn in *. specialize (L2 x eq_refl). destruct H1 as (H1 & _). congruence.
      - destruct H1 as (E1 & _ & H1). destruct H2 as (E2 & _ & H2).
        assert (a = b) by congruence. subst b. f_equal. apply (IH _ _ a); try easy; try lia.
        + intros c Hc'. apply L1. cbn [rev] in *. destruct (rev l1); easy.
        + intros c Hc'. apply L2. cbn [rev] in *. destruct (rev l2); easy. }
    induction l as [|x l IH]; [constructor|].
    assert (Hcl : chain l) by (destruct l; cbn in *; tauto).
    constructor.
    - intros Hin. apply in_split in Hin. destruct Hin as (l1 & l2 & ->).
      assert (l1 ++ x :: l2 = l2).
      { apply (Hlen (length (l1 ++ x :: l2)) _ _ x (Nat.le_refl _)); try easy.
        - apply chain_app in Hcl. tauto.
        - intros a Ha. apply Hl. cbn [rev]. rewrite rev_app_distr. cbn [rev] in *.
          destruct (rev l2); easy. }
      apply (f_equal (@length A)) in H. rewrite app_length in H. cbn in H. lia.
    - apply IH; [easy|]. intros a Ha. apply Hl. cbn. destruct (rev l); easy.
  Qed.

  Definition g_fin (nx bk : option A) : bool :=
    match bk with Some b => oeqb (nxt b) nx | None => true end.
  Definition g_next (s : option A * option A) : option A * (option A * option A) :=
    if g_fin (fst s) (snd s) then (None, s)
    else match fst s with
         | Some n => (Some n, (nxt n, snd s))
         | None => (None, (None, snd s))
         end.
  Definition g_back (s : option A * option A) : option A * (option A * option A) :=
    if g_fin (fst s) (snd s) then (None, s)
    else match snd s with
         | Some n => (Some n, (fst s, prv n))
         | None => (None, (fst s, None))
         end.
  Fixpoint g_run (s : option A * option A) (calls : list pull) : list (option A) :=
    match calls with
    | [] => []
    | Front :: cs => let r := g_next s in fst r :: g_run (snd r) cs
    | Back :: cs => let r := g_back s in fst r :: g_run (snd r) cs
    end.

  Lemma rev_nil_inv (l : list A) : rev l = [] -> l = [].
  Proof. intros H. rewrite <- (rev_involutive l), H. reflexivity. Qed.

  Lemma g_fin_spec l pre mid post : good l -> l = pre ++ mid ++ post ->
    g_fin (hd_error (mid ++ post)) (hd_error (rev (pre ++ mid))) =
    match mid with [] => true | _ => false end.
  Proof.
    intros Hg E. unfold g_fin. destruct mid as [|x mid].
    - cbn [app] in *. rewrite app_nil_r. destruct (rev pre) as [|b r] eqn:Er; cbn; [easy|].
      assert (Ep : pre = rev r ++ [b]) by (rewrite <- (rev_involutive pre), Er; reflexivity).
      apply oeqb_eq. subst pre. rewrite <- app_assoc in E.
      now destruct (good_split _ _ _ _ Hg E).
    - destruct (@exists_last _ (x :: mid)) as (m & b & Em); [easy|].
      rewrite Em in *. rewrite app_assoc in E. rewrite app_assoc, rev_unit. cbn [hd_error].
      rewrite <- app_assoc in E. cbn [app] in E. rewrite app_assoc in E.
      destruct (good_split l (pre ++ m) b post Hg) as [H1 _].
      { now rewrite E, <- !app_assoc. }
      destruct (oeqb _ _) eqn:Eq; [|easy]. apply oeqb_eq in Eq. exfalso.
      rewrite H1 in Eq. apply good_nodup in Hg. rewrite E in Hg.
      rewrite <- Em in Eq. cbn [app hd_error] in Eq.
      destruct post as [|y post]; [easy|]. injection Eq as ->.
      assert (E2 : l = pre ++ (x :: mid) ++ x :: post).
      { rewrite E, Em, <- !app_assoc. reflexivity. }
      rewrite <- E, E2 in Hg. apply NoDup_app_r in Hg. cbn in Hg.
      inversion Hg; subst. apply H2. apply in_app_iff. right. now left.
  Qed.

  Theorem g_run_spec l : good l -> forall calls pre mid post, l = pre ++ mid ++ post ->
    g_run (hd_error (mid ++ post), hd_error (rev (pre ++ mid))) calls = deque_run mid calls.
  Proof.
    intros Hg. induction calls as [|[] cs IH]; intros pre mid post E; [easy|..].
    - cbn [g_run deque_run]. unfold g_next. cbn [fst snd].
      rewrite (g_fin_spec l pre mid post Hg E). destruct mid as [|x mid].
      + cbn [fst snd]. f_equal. now apply IH.
      + cbn [app hd_error fst snd]. f_equal.
        destruct (good_split l pre x (mid ++ post) Hg E) as [-> _].
        specialize (IH (pre ++ [x]) mid post). rewrite <- !app_assoc in IH. cbn [app] in IH.
        now apply IH.
    - cbn [g_run deque_run]. unfold g_back. cbn [fst snd].
      rewrite (g_fin_spec l pre mid post Hg E). destruct mid as [|y mid].
      + cbn [fst snd rev]. f_equal. now apply IH.
      + destruct (@exists_last _ (y :: mid)) as (m & b & Em); [easy|].
        rewrite Em in *. rewrite (app_assoc pre), !rev_unit. cbn [hd_error fst snd]. f_equal.
        rewrite <- app_assoc in E. cbn [app] in E. rewrite app_assoc in E.
        destruct (good_split l (pre ++ m) b post Hg) as [_ ->].
        { exact E. }
        rewrite rev_involutive. specialize (IH pre m (b :: post)).
        rewrite <- app_assoc. cbn [app]. apply IH. now rewrite E, <- app_assoc.
  Qed.

  Corollary g_run_all l calls : good l ->
    g_run (hd_error l, hd_error (rev l)) calls = deque_run l calls.
  Proof.
    intros Hg. pose proof (g_run_spec l Hg calls [] l []) as H.
    cbn in H. rewrite app_nil_r in H. now apply H.
  Qed.
End Chain.

(* ---- children() *)
Lemma children_good L F p : Rep L F -> good (next_sibling L) (previous_sibling L) (children_of F p).
Proof.
  intros R. pose proof (r_wf L F R) as W.
  assert (Hs : forall c, In c (children_of F p) ->
    next_sibling L c = succ_in c (children_of F p) /\ previous_sibling L c = pred_in c (children_of F p)).
  { intros c Hc. unfold next_sibling, previous_sibling.
    rewrite (r_next L F R), (r_prev L F R), (child_siblings F W p c Hc). easy. }
  pose proof (children_nodup F W p) as Hnd.
  split; [|split].
  - assert (Hsub : forall l1 l2, children_of F p = l1 ++ l2 -> chain (next_sibling L) (previous_sibling L) l2).
    { intros l1 l2. revert l1. induction l2 as [|a l2 IH]; intros l1 E; [easy|].
      destruct l2 as [|b l2]; [easy|].
      cbn [chain].
      destruct (Hs a) as [Hn _]. { rewrite E. apply in_app_iff. right. now left. }
      destruct (Hs b) as [_ Hp]. { rewrite E. apply in_app_iff. right. right. now left. }
      assert (Hsucc : succ_in a (children_of F p) = Some b).
      { rewrite E in Hnd |- *. clear - Hnd. induction l1 as [|x l1 IH]; cbn.
        - now rewrite Nat.eqb_refl.
        - cbn in Hnd. inversion Hnd; subst. destruct (Nat.eqb_spec x a) as [->|].
          + exfalso. apply H1. apply in_app_iff. right. now left.
          + now apply IH. }
      split; [now rewrite Hn|]. split.
      - rewrite Hp. now apply succ_to_pred.
      - apply (IH (l1 ++ [a])). now rewrite <- app_assoc. }
    now apply (Hsub []).
  - intros a Ha. destruct (Hs a) as [-> _].
    + apply in_rev. destruct (rev (children_of F p)); [easy|]. injection Ha as ->. now left.
    + apply (last_succ_none a (children_of F p) Hnd Ha).
  - intros a Ha. destruct (Hs a) as [_ ->].
    + destruct (children_of F p); [easy|]. injection Ha as ->. now left.
    + unfold pred_in. apply (last_succ_none a (rev (children_of F p))).
      * now apply NoDup_rev.
      * unfold last_error. now rewrite rev_involutive.
Qed.

Lemma children_run_gen L it calls :
  children_run L it calls = g_run Nat.eqb (next_sibling L) (previous_sibling L) (c_next it, c_back it) calls.
Proof.
  revert it. induction calls as [|[] cs IH]; intros it; [easy|..]; cbn [children_run g_run].
  - rewrite IH. unfold children_next, g_next, children_finished, g_fin. cbn [fst snd].
    destruct it as [[n|] [b|]]; cbn; try easy.
    + change (oeqb Nat.eqb) with onid_eqb. destruct (onid_eqb _ _); easy.
    + change (oeqb Nat.eqb) with onid_eqb. destruct (onid_eqb _ _); easy.
  - rewrite IH. unfold children_next_back, g_back, children_finished, g_fin. cbn [fst snd].
    destruct it as [n [b|]]; cbn; try easy.
    change (oeqb Nat.eqb) with onid_eqb. destruct (onid_eqb _ _); easy.
Qed.

Theorem children_run_spec L F p calls : Rep L F ->
  children_run L (children L p) calls = deque_run (children_of F p) calls.
Proof.
  intros R. rewrite children_run_gen. unfold children. cbn [c_next c_back].
  unfold first_child, last_child. rewrite (r_first L F R), (r_last L F R).
  apply g_run_all; [apply Nat.eqb_eq|]. now apply children_good.
Qed.

(* ---- traverse() *)
Lemma edge_eqb_eq a b : edge_eqb a b = true <-> a = b.
Proof.
  destruct a, b; cbn; try rewrite Nat.eqb_eq; split; try easy; congruence.
Qed.

Lemma edges_hd t : hd_error (edges t) = Some (Start (t_node t)).
Proof. now destruct t. Qed.
Lemma edges_last t : hd_error (rev (edges t)) = Some (End (t_node t)).
Proof. destruct t. cbn. now rewrite rev_app_distr. Qed.
Lemma edges_ne t : edges t <> [].
Proof. now destruct t. Qed.

Lemma flat_edges_hd ts : hd_error (flat_map edges ts) = option_map Start (hd_error (map t_node ts)).
Proof. destruct ts as [|t ts]; [easy|]. cbn. now destruct t. Qed.
Lemma flat_edges_last ts : hd_error (rev (flat_map edges ts)) = option_map End (hd_error (rev (map t_node ts))).
Proof.
  induction ts as [|t ts IH] using rev_ind; [easy|].
  rewrite flat_map_app, map_app, !rev_app_distr. cbn. rewrite app_nil_r.
  pose proof (edges_last t). destruct (rev (edges t)); easy.
Qed.

Lemma traverse_chain L F r t : Rep L F -> tree_at F t ->
  ~ In r (flat_map preorder (t_kids t)) -> chain (next_item L r) (previous_item L r) (edges t).
Proof.
  intros R. pose proof (r_wf L F R) as W.
  induction t as [n ts IH] using tree_ind'. intros Hat Hr. cbn [t_kids] in Hr.
  inversion Hat as [? ? E Hall]; subst. cbn [edges].
  assert (Hch : chain (next_item L r) (previous_item L r) (flat_map edges ts)).
  { pose proof (children_good L F n R) as (Hg & _ & _). rewrite E in Hg. clear E Hat.
    induction ts as [|t ts IHts]; [easy|]. cbn [flat_map] in *.
    inversion IH as [|? ? IHt IHr]; subst. inversion Hall as [|? ? At Ar]; subst.
    rewrite in_app_iff in Hr. apply chain_app. split; [|split].
    - apply IHt; [easy|]. intros H. apply Hr. left. destruct t; now right.
    - apply IHts; try easy; [tauto|]. clear - Hg. cbn in Hg.
      destruct (map t_node ts); cbn in *; tauto.
    - intros a b Ha Hb. rewrite edges_last in Ha. injection Ha as <-.
      rewrite flat_edges_hd in Hb. destruct ts as [|t2 ts]; [easy|]. cbn in Hb. injection Hb as <-.
      cbn in Hg. destruct Hg as (Hn & Hp & _).
      assert (r <> t_node t) by (intros ->; apply Hr; left; apply preorder_self).
      assert (r <> t_node t2).
      { intros ->. apply Hr. right. cbn. apply in_app_iff. left. apply preorder_self. }
      unfold next_item, previous_item.
      destruct (Nat.eqb_spec (t_node t) r); [congruence|].
      destruct (Nat.eqb_spec (t_node t2) r); [congruence|].
      now rewrite Hn, Hp. }
  assert (Hf : first_child L n = hd_error (map t_node ts)).
  { unfold first_child. now rewrite (r_first L F R), E. }
  assert (Hl : last_child L n = hd_error (rev (map t_node ts))).
  { unfold last_child. now rewrite (r_last L F R), E. }
  change (Start n :: flat_map edges ts ++ [End n]) with ([Start n] ++ (flat_map edges ts ++ [End n])).
  apply chain_app. split; [easy|]. split.
  - apply chain_app. split; [easy|]. split; [easy|].
    intros a b Ha Hb. injection Hb as <-. rewrite flat_edges_last in Ha.
    rewrite <- Hl in Ha. destruct (last_child L n) as [c|] eqn:El; [|easy]. cbn in Ha. injection Ha as <-.
    assert (Hc : In c (children_of F n)).
    { rewrite E. apply in_rev. destruct (rev (map t_node ts)); [easy|]. injection Hl as ->. now left. }
    assert (r <> c).
    { intros ->. apply Hr. rewrite E in Hc. apply in_map_iff in Hc. destruct Hc as (t & <- & Ht).
      apply in_flat_map. exists t. split; [easy|apply preorder_self]. }
    unfold next_item, previous_item. rewrite El. split; [|easy].
    destruct (Nat.eqb_spec c r); [congruence|].
    pose proof (children_good L F n R) as (_ & Hg & _).
    rewrite (Hg c). 2:{ now rewrite E, <- Hl. }
    unfold parent. rewrite (r_parent L F R), (wf_child F W n c Hc). easy.
  - intros a b Ha Hb. injection Ha as <-.
    destruct ts as [|t ts].
    + cbn in Hb. injection Hb as <-. unfold next_item, previous_item.
      cbn in Hf, Hl. now rewrite Hf, Hl.
    + assert (Hb' : b = Start (t_node t)).
      { cbn in Hb. destruct t. cbn in *. congruence. } subst b.
      assert (Hc : In (t_node t) (children_of F n)) by (rewrite E; now left).
      assert (r <> t_node t).
      { intros ->. apply Hr. cbn. apply in_app_iff. left. apply preorder_self. }
      unfold next_item, previous_item. rewrite Hf. cbn [map hd_error].
      destruct (Nat.eqb_spec (t_node t) r); [congruence|].
      pose proof (children_good L F n R) as (_ & _ & Hg).
      rewrite (Hg (t_node t)). 2:{ now rewrite E. }
      unfold parent. rewrite (r_parent L F R), (wf_child F W n _ Hc). easy.
Qed.

Lemma traverse_good L F t : Rep L F -> tree_at F t ->
  good (next_item L (t_node t)) (previous_item L (t_node t)) (edges t).
Proof.
  intros R Hat. split; [|split].
  - apply (traverse_chain L F _ t R Hat).
    pose proof (preorder_nodup F t (r_wf L F R) Hat) as H. destruct t. cbn in *. now inversion H.
  - intros a Ha. rewrite edges_last in Ha. injection Ha as <-. cbn. now rewrite Nat.eqb_refl.
  - intros a Ha. rewrite edges_hd in Ha. injection Ha as <-. cbn. now rewrite Nat.eqb_refl.
Qed.

Lemma traverse_run_gen L it calls :
  traverse_run L it calls =
  g_run edge_eqb (next_item L (t_root it)) (previous_item L (t_root it)) (t_next it, t_back it) calls.
Proof.
  revert it. induction calls as [|[] cs IH]; intros it; [easy|..]; cbn [traverse_run g_run].
  - rewrite IH. unfold traverse_next, g_next, traverse_finished, g_fin. cbn [fst snd].
    destruct it as [r [n|] [b|]]; cbn; try easy.
    + change (oeqb edge_eqb) with oedge_eqb. destruct (oedge_eqb _ _); easy.
    + change (oeqb edge_eqb) with oedge_eqb. destruct (oedge_eqb _ _); easy.
  - rewrite IH. unfold traverse_next_back, g_back, traverse_finished, g_fin. cbn [fst snd].
    destruct it as [r n [b|]]; cbn; try easy.
    change (oeqb edge_eqb) with oedge_eqb. destruct (oedge_eqb _ _); easy.
Qed.

Theorem traverse_run_spec L F t calls : Rep L F -> tree_at F t ->
  traverse_run L (traverse (t_node t)) calls = deque_run (edges t) calls.
Proof.
  intros R Hat. rewrite traverse_run_gen. unfold traverse. cbn [t_root t_next t_back].
  rewrite <- edges_hd, <- edges_last. apply g_run_all; [apply edge_eqb_eq|]. now apply (traverse_good L F).
Qed.

(* a loop over traverse() *)
Definition t_state (L : links) (t : tree) (pre mid : list edge) (it : traverse_it) : Prop :=
  edges t = pre ++ mid /\ it = mkTraverse (t_node t) (hd_error mid) (Some (End (t_node t))).

Lemma traverse_next_spec L F t pre mid it : Rep L F -> tree_at F t ->
  t_state L t pre mid it ->
  match mid with
  | [] => traverse_next L it = (None, it)
  | e :: mid' => exists it', traverse_next L it = (Some e, it') /\ t_state L t (pre ++ [e]) mid' it'
  end.
Proof.
  intros R Hat (E & ->). pose proof (traverse_good L F t R Hat) as Hg.
  unfold traverse_next, traverse_finished. cbn [t_root t_next t_back].
  pose proof (g_fin_spec edge_eqb edge_eqb_eq _ _ (edges t) pre mid [] Hg) as Hf.
  rewrite !app_nil_r in Hf. specialize (Hf E). rewrite <- E, edges_last in Hf. unfold g_fin in Hf.
  change (oeqb edge_eqb) with oedge_eqb in Hf. rewrite Hf. destruct mid as [|e mid]; [easy|].
  cbn [hd_error]. eexists. split; [reflexivity|]. split; [now rewrite <- app_assoc|].
  f_equal. now destruct (good_split _ _ (edges t) pre e mid Hg E).
Qed.

Theorem traverse_collect_spec L F t fuel : Rep L F -> tree_at F t ->
  length (edges t) < fuel -> traverse_collect fuel L (traverse (t_node t)) = Ok (edges t).
Proof.
  intros R Hat.
  assert (H : forall fuel pre mid it, t_state L t pre mid it -> length mid < fuel ->
    traverse_collect fuel L it = Ok mid).
  { clear fuel. induction fuel as [|fuel IH]; intros pre mid it Hs Hf; [lia|].
    pose proof (traverse_next_spec L F t pre mid it R Hat Hs) as Hn. cbn.
    destruct mid as [|e mid]; [now rewrite Hn|].
    destruct Hn as (it' & -> & Hs'). cbn in Hf. rewrite (IH _ _ _ Hs'); [easy|lia]. }
  intros Hf. apply (H fuel [] (edges t)); [|easy]. split; [easy|]. now rewrite edges_hd.
Qed.

Fixpoint starts (l : list edge) : list nid :=
  match l with
  | [] => []
  | Start n :: l => n :: starts l
  | End _ :: l => starts l
  end.

Lemma starts_app l1 l2 : starts (l1 ++ l2) = starts l1 ++ starts l2.
Proof. induction l1 as [|[] l1 IH]; cbn; [easy| |easy]. now rewrite IH. Qed.

Lemma starts_edges t : starts (edges t) = preorder t.
Proof.
  induction t as [n ts IH] using tree_ind'. cbn. f_equal. rewrite starts_app. cbn. rewrite app_nil_r.
  induction IH as [|t ts Ht IH2 IH3]; [easy|]. cbn. now rewrite starts_app, Ht, IH3.
Qed.

Lemma edges_length t : length (edges t) = 2 * length (preorder t).
Proof.
  induction t as [n ts IH] using tree_ind'. cbn [edges preorder length]. rewrite app_length. cbn [length].
  assert (length (flat_map edges ts) = 2 * length (flat_map preorder ts)); [|lia].
  induction IH as [|t ts Ht IH2 IH3]; [easy|]. cbn [flat_map]. rewrite !app_length. lia.
Qed.

Lemma descendants_next_spec L F t : Rep L F -> tree_at F t ->
  forall fuel pre mid it, t_state L t pre mid it -> length mid < fuel ->
  match starts mid with
  | [] => exists it', descendants_next fuel L it = Ok (None, it')
  | n :: _ => exists pre' mid' it', descendants_next fuel L it = Ok (Some n, it') /\
       t_state L t pre' mid' it' /\ starts mid = n :: starts mid' /\ length mid' < length mid
  end.
Proof.
  intros R Hat. induction fuel as [|fuel IH]; intros pre mid it Hs Hf; [lia|].
  pose proof (traverse_next_spec L F t pre mid it R Hat Hs) as Hn. cbn [descendants_next].
  destruct mid as [|[n|n] mid].
  - cbn. exists it. now rewrite Hn.
  - destruct Hn as (it' & -> & Hs'). cbn [starts]. exists (pre ++ [Start n]), mid, it'.
    repeat split; try easy; try apply Hs'. cbn. lia.
  - destruct Hn as (it' & -> & Hs'). cbn in Hf. cbn [starts].
    specialize (IH _ _ _ Hs' ltac:(lia)). destruct (starts mid) as [|x s] eqn:Es; [easy|].
    destruct IH as (pre' & mid' & it'' & H1 & H2 & H3 & H4).
    exists pre', mid', it''. repeat split; try easy; try apply H2. cbn. lia.
Qed.

Theorem descendants_spec L F t fuel : Rep L F -> tree_at F t ->
  2 * length (preorder t) < fuel -> descendants fuel L (t_node t) = Ok (preorder t).
Proof.
  intros R Hat.
  assert (H : forall fuel pre mid it, t_state L t pre mid it -> length mid < fuel ->
    descendants_collect fuel L it = Ok (starts mid)).
  { clear fuel. induction fuel as [|fuel IH]; intros pre mid it Hs Hf; [lia|].
    pose proof (descendants_next_spec L F t R Hat (S fuel) pre mid it Hs Hf) as Hn.
    cbn [descendants_collect]. destruct (starts mid) as [|n s] eqn:Es.
    - destruct Hn as (it' & ->). reflexivity.
    - destruct Hn as (pre' & mid' & it' & -> & H2 & H3 & H4). cbn [bind].
      rewrite (IH _ _ _ H2); [|lia]. cbn. congruence. }
  intros Hf. unfold descendants. rewrite (H fuel [] (edges t)).
  - now rewrite starts_edges.
  - split; [easy|]. now rewrite edges_hd.
  - rewrite edges_length. lia.
Qed.

(* ---- ancestors(), preceding_siblings(), following_siblings() *)
Lemma ancestor_chain_exists F n : acyclic F -> exists l, ancestor_chain F n l.
Proof.
  intros (rank & B & _ & Hr).
  remember (rank n) as k eqn:Hk. revert n Hk.
  induction k as [k IH] using (well_founded_induction Wf_nat.lt_wf). intros n ->.
  destruct (parent_of F n) as [p|] eqn:E.
  - destruct (IH (rank p) (Hr n p E) p eq_refl) as (l & Hl). exists (n :: l). now apply ac_up with p.
  - exists [n]. now constructor.
Qed.

Lemma ancestor_chain_In F n l : ancestor_chain F n l -> forall m, In m l <-> anc_or_self F m n.
Proof.
  induction 1 as [n Hn|n p l Hp Hl IH]; intros m; cbn.
  - split.
    + intros [->|[]]. constructor.
    + intros H. inversion H; subst; [now left|congruence].
  - rewrite IH. split.
    + intros [->|H]; [constructor|]. now apply aos_up with p.
    + intros H. inversion H as [|? ? p' Hp']; subst; [now left|]. right. congruence.
Qed.

Theorem ancestors_spec L F n l fuel : Rep L F -> ancestor_chain F n l -> length l < fuel ->
  ancestors fuel L n = Ok l.
Proof.
  intros R H. revert fuel. unfold ancestors. induction H as [n Hn|n p l Hp Hl IH]; intros fuel Hf; cbn in Hf.
  - destruct fuel as [|[|fuel]]; try lia. cbn. unfold parent. now rewrite (r_parent L F R), Hn.
  - destruct fuel as [|fuel]; [lia|]. cbn. unfold parent at 2. rewrite (r_parent L F R), Hp.
    rewrite IH; [easy|lia].
Qed.

Lemma simple_collect_chain step l fuel : length l < fuel ->
  (forall l1 a l2, l = l1 ++ a :: l2 -> step a = hd_error l2) ->
  simple_collect fuel step (hd_error l) = Ok l.
Proof.
  revert l. induction fuel as [|fuel IH]; intros l Hf H; [lia|].
  destruct l as [|a l]; [easy|]. cbn. rewrite (H [] a l eq_refl). cbn in Hf.
  rewrite (IH l); [easy|lia|]. intros l1 b l2 ->. now apply (H (a :: l1)).
Qed.

Lemma succ_in_at n l1 l2 : NoDup (l1 ++ n :: l2) -> succ_in n (l1 ++ n :: l2) = hd_error l2.
Proof.
  induction l1 as [|x l1 IH]; cbn; intros H.
  - now rewrite Nat.eqb_refl.
  - inversion H; subst. destruct (Nat.eqb_spec x n) as [->|]; [|now apply IH].
    exfalso. apply H2. apply in_app_iff. right. now left.
Qed.

Theorem following_siblings_spec L F n l1 l2 fuel : Rep L F -> siblings_of F n = l1 ++ n :: l2 ->
  length (n :: l2) < fuel -> following_siblings fuel L n = Ok (n :: l2).
Proof.
  intros R E Hf. pose proof (r_wf L F R) as W. unfold following_siblings.
  apply (simple_collect_chain _ (n :: l2) fuel Hf).
  intros k1 a k2 Ek. unfold next_sibling. rewrite (r_next L F R).
  assert (Ha : In a (siblings_of F n)).
  { rewrite E, Ek. apply in_app_iff. right. apply in_app_iff. right. now left. }
  rewrite (proj1 (wf_share F W n a Ha)).
  pose proof (wf_nodup F W n) as Hnd. rewrite E, Ek in *.
  rewrite app_assoc in *. now apply succ_in_at.
Qed.

Theorem preceding_siblings_spec L F n l1 l2 fuel : Rep L F -> siblings_of F n = l1 ++ n :: l2 ->
  length (n :: l1) < fuel -> preceding_siblings fuel L n = Ok (n :: rev l1).
Proof.
  intros R E Hf. pose proof (r_wf L F R) as W. unfold preceding_siblings.
  apply (simple_collect_chain _ (n :: rev l1) fuel).
  { cbn. now rewrite rev_length. }
  intros k1 a k2 Ek. unfold previous_sibling. rewrite (r_prev L F R).
  assert (Er : rev (siblings_of F n) = (rev l2 ++ k1) ++ a :: k2).
  { rewrite E, rev_app_distr. cbn. rewrite <- app_assoc. cbn. rewrite Ek. now rewrite <- app_assoc. }
  assert (Ha : In a (siblings_of F n)).
  { apply in_rev. rewrite Er. apply in_app_iff. right. now left. }
  rewrite (proj1 (wf_share F W n a Ha)). unfold pred_in. rewrite Er. apply succ_in_at.
  rewrite <- Er. apply NoDup_rev. apply W.
Qed.
