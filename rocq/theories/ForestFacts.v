(* Acyclicity, ancestors and finite subtrees of forests. *)
From Coq Require Import List Bool PeanoNat Lia.
From Verif Require Import Base ForestSpec ListFacts Links Tree TreeProofs.
Import ListNotations.

(* ---- parents after each edit *)
Lemma parent_append p n F m : wf_forest F ->
  parent_of (f_append p n F) m = if Nat.eqb m n then Some p else parent_of F m.
Proof.
  intros W. unfold f_append. cbn. rewrite mem_app, mem_cons.
  destruct (Nat.eqb_spec m n) as [->|Hm]; cbn.
  - now rewrite orb_true_r.
  - change (mem m []) with false. rewrite orb_false_r.
    destruct (mem m (rm n (children_of F p))) eqn:E; [|easy].
    apply mem_In, in_rm in E. symmetry. now apply W.
Qed.

Lemma parent_prepend p n F m : wf_forest F ->
  parent_of (f_prepend p n F) m = if Nat.eqb m n then Some p else parent_of F m.
Proof.
  intros W. unfold f_prepend. cbn. rewrite mem_cons.
  destruct (Nat.eqb_spec m n) as [->|Hm]; cbn; [easy|].
  destruct (mem m (rm n (children_of F p))) eqn:E; [|easy].
  apply mem_In, in_rm in E. symmetry. now apply W.
Qed.

Lemma parent_insert_after a n F m : wf_forest F -> a <> n ->
  parent_of (f_insert_after a n F) m = if Nat.eqb m n then parent_of F a else parent_of F m.
Proof.
  intros W Han. unfold f_insert_after. cbn.
  destruct (Nat.eqb_spec a n) as [|_]; [easy|].
  assert (Ha : In a (rm n (siblings_of F a))) by (apply in_rm; split; [apply W|easy]).
  destruct (mem m (ins_after a n (rm n (siblings_of F a)))) eqn:E.
  - destruct (Nat.eqb_spec m n) as [->|Hm]; [easy|].
    apply mem_In, (in_ins_after _ _ _ _ Ha) in E. destruct E as [|E]; [easy|].
    apply in_rm in E. destruct E as [E _]. symmetry. now apply W.
  - apply mem_not_In in E. rewrite (in_ins_after _ _ _ _ Ha) in E.
    destruct (Nat.eqb_spec m n) as [->|Hm]; [tauto|easy].
Qed.

Lemma parent_insert_before a n F m : wf_forest F -> a <> n ->
  parent_of (f_insert_before a n F) m = if Nat.eqb m n then parent_of F a else parent_of F m.
Proof.
  intros W Han. unfold f_insert_before. cbn.
  destruct (Nat.eqb_spec a n) as [|_]; [easy|].
  assert (Ha : In a (rm n (siblings_of F a))) by (apply in_rm; split; [apply W|easy]).
  destruct (mem m (ins_before a n (rm n (siblings_of F a)))) eqn:E.
  - destruct (Nat.eqb_spec m n) as [->|Hm]; [easy|].
    apply mem_In, (in_ins_before _ _ _ _ Ha) in E. destruct E as [|E]; [easy|].
    apply in_rm in E. destruct E as [E _]. symmetry. now apply W.
  - apply mem_not_In in E. rewrite (in_ins_before _ _ _ _ Ha) in E.
    destruct (Nat.eqb_spec m n) as [->|Hm]; [tauto|easy].
Qed.

(* ---- children after each edit *)
Lemma children_append p n F q :
  children_of (f_append p n F) q =
  if Nat.eqb q p then rm n (children_of F p) ++ [n] else rm n (children_of F q).
Proof. reflexivity. Qed.

Lemma children_prepend p n F q :
  children_of (f_prepend p n F) q =
  if Nat.eqb q p then n :: rm n (children_of F p) else rm n (children_of F q).
Proof. reflexivity. Qed.

Lemma children_insert_after a n F q : a <> n ->
  children_of (f_insert_after a n F) q =
  match parent_of F a with
  | Some p => if Nat.eqb q p then ins_after a n (rm n (siblings_of F a)) else rm n (children_of F q)
  | None => rm n (children_of F q)
  end.
Proof.
  intros H. unfold f_insert_after. cbn. destruct (Nat.eqb_spec a n); [easy|].
  destruct (parent_of F a); reflexivity.
Qed.

Lemma children_insert_before a n F q : a <> n ->
  children_of (f_insert_before a n F) q =
  match parent_of F a with
  | Some p => if Nat.eqb q p then ins_before a n (rm n (siblings_of F a)) else rm n (children_of F q)
  | None => rm n (children_of F q)
  end.
Proof.
  intros H. unfold f_insert_before. cbn. destruct (Nat.eqb_spec a n); [easy|].
  destruct (parent_of F a); reflexivity.
Qed.

(* ---- ancestors *)
Lemma anc_trans F a b c : anc_or_self F a b -> anc_or_self F b c -> anc_or_self F a c.
Proof. intros H1 H2. induction H2; [easy|]. eapply aos_up; eauto. Qed.

Lemma anc_parent F n p : parent_of F n = Some p -> anc_or_self F p n.
Proof. intros H. eapply aos_up; [eauto|constructor]. Qed.

Lemma anc_rank F rank : (forall n p, parent_of F n = Some p -> rank p < rank n) ->
  forall a n, anc_or_self F a n -> a = n \/ rank a < rank n.
Proof.
  intros Hr a n H. induction H as [|a n p Hp H IH]; [now left|].
  right. apply Hr in Hp. destruct IH as [->|IH]; lia.
Qed.

(* the ancestor chain of a node is linear *)
Lemma anc_linear F a b n : anc_or_self F a n -> anc_or_self F b n ->
  anc_or_self F a b \/ anc_or_self F b a.
Proof.
  intros Ha. revert b. induction Ha as [n|a n p Hp Ha IH]; intros b Hb.
  - now right.
  - inversion Hb as [|? ? p' Hp' Hb']; subst.
    + left. eapply aos_up; eauto.
    + rewrite Hp in Hp'. injection Hp' as ->. now apply IH.
Qed.

(* decision procedure *)
Fixpoint anc_b (k : nat) (F : forest) (a n : nid) : bool :=
  Nat.eqb a n ||
  match k, parent_of F n with
  | S k, Some p => anc_b k F a p
  | _, _ => false
  end.

Lemma anc_b_spec F rank : (forall n p, parent_of F n = Some p -> rank p < rank n) ->
  forall k a n, rank n <= k -> anc_b k F a n = true <-> anc_or_self F a n.
Proof.
  intros Hr. induction k as [|k IH]; intros a n Hk; cbn.
  - rewrite orb_false_r, Nat.eqb_eq. split; [intros ->; constructor|].
    intros H. inversion H as [|? ? p Hp]; subst; [easy|]. apply Hr in Hp. lia.
  - rewrite orb_true_iff, Nat.eqb_eq. split.
    + intros [->|H]; [constructor|]. destruct (parent_of F n) as [p|] eqn:Ep; [|easy].
      apply IH in H; [|apply Hr in Ep; lia]. eapply aos_up; eauto.
    + intros H. inversion H as [|? ? p Hp Ha]; subst; [now left|]. right. rewrite Hp.
      apply IH; [apply Hr in Hp; lia|easy].
Qed.

Lemma acyclic_no_loop F a n : acyclic F -> anc_or_self F a n -> parent_of F a = Some n -> False.
Proof.
  intros (rank & B & _ & Hr) Ha Hp.
  apply (anc_rank F rank Hr) in Ha. apply Hr in Hp. destruct Ha as [->|]; lia.
Qed.

Lemma acyclic_antisym F a b : acyclic F -> anc_or_self F a b -> anc_or_self F b a -> a = b.
Proof.
  intros (rank & B & _ & Hr) H1 H2.
  apply (anc_rank F rank Hr) in H1. apply (anc_rank F rank Hr) in H2. intuition lia.
Qed.

Lemma acyclic_parent_neq F n : acyclic F -> parent_of F n <> Some n.
Proof. intros A H. exact (acyclic_no_loop F n n A (aos_self F n) H). Qed.

(* ---- acyclicity is kept when one node gets a new parent outside of its subtree *)
Lemma acyclic_reparent F F' n q : acyclic F ->
  (forall m, parent_of F' m = if Nat.eqb m n then q else parent_of F m) ->
  (forall p, q = Some p -> ~ anc_or_self F n p) ->
  acyclic F'.
Proof.
  intros (rank & B & Hb & Hr) Hp Hq.
  destruct q as [p|].
  2:{ exists rank, B. split; [easy|]. intros m r. rewrite Hp.
      destruct (Nat.eqb m n); [easy|]. apply Hr. }
  specialize (Hq p eq_refl).
  exists (fun m => if anc_b B F n m then rank m + S (rank p) else rank m), (B + S B). split.
  - intros m. pose proof (Hb m). pose proof (Hb p). destruct (anc_b B F n m); lia.
  - intros m r. rewrite Hp. destruct (Nat.eqb_spec m n) as [->|Hm].
    + intros [= <-]. destruct (anc_b B F n p) eqn:E.
      { apply (anc_b_spec F rank Hr) in E; [tauto|apply Hb]. }
      replace (anc_b B F n n) with true; [lia|].
      symmetry. apply (anc_b_spec F rank Hr); [apply Hb|constructor].
    + intros Hmr. apply Hr in Hmr as Hlt.
      destruct (anc_b B F n r) eqn:E1, (anc_b B F n m) eqn:E2; try lia.
      exfalso. apply (anc_b_spec F rank Hr) in E1; [|apply Hb].
      assert (anc_b B F n m = true); [|congruence].
      apply (anc_b_spec F rank Hr); [apply Hb|]. eapply aos_up; eauto.
Qed.

Lemma acyclic_empty : acyclic empty_forest.
Proof. exists (fun _ => 0), 0. split; [easy|]. cbn. easy. Qed.

Lemma acyclic_detach n F : acyclic F -> acyclic (f_detach n F).
Proof.
  intros A. apply (acyclic_reparent F _ n None A); [reflexivity|easy].
Qed.

Lemma acyclic_append p n F : wf_forest F -> acyclic F -> ~ anc_or_self F n p ->
  acyclic (f_append p n F).
Proof.
  intros W A H. apply (acyclic_reparent F _ n (Some p) A).
  - intros m. now apply parent_append.
  - intros q [= <-]. easy.
Qed.

Lemma acyclic_prepend p n F : wf_forest F -> acyclic F -> ~ anc_or_self F n p ->
  acyclic (f_prepend p n F).
Proof.
  intros W A H. apply (acyclic_reparent F _ n (Some p) A).
  - intros m. now apply parent_prepend.
  - intros q [= <-]. easy.
Qed.

Lemma acyclic_insert_after a n F : wf_forest F -> acyclic F -> ~ anc_or_self F n a ->
  acyclic (f_insert_after a n F).
Proof.
  intros W A H. apply (acyclic_reparent F _ n (parent_of F a) A).
  - intros m. apply parent_insert_after; [easy|]. intros ->. apply H. constructor.
  - intros q Hq Hn. apply H. eapply aos_up; eauto.
Qed.

Lemma acyclic_insert_before a n F : wf_forest F -> acyclic F -> ~ anc_or_self F n a ->
  acyclic (f_insert_before a n F).
Proof.
  intros W A H. apply (acyclic_reparent F _ n (parent_of F a) A).
  - intros m. apply parent_insert_before; [easy|]. intros ->. apply H. constructor.
  - intros q Hq Hn. apply H. eapply aos_up; eauto.
Qed.

(* ---- finite subtrees *)
Lemma trees_of_list F l : (forall c, In c l -> exists t, t_node t = c /\ tree_at F t) ->
  exists ts, map t_node ts = l /\ Forall (tree_at F) ts.
Proof.
  induction l as [|c l IH]; intros H.
  - exists []. now split.
  - destruct (H c (or_introl eq_refl)) as (t & Ht & Hat).
    destruct IH as (ts & Hts & Hall); [intros; apply H; now right|].
    exists (t :: ts). cbn. split; [now rewrite Ht, Hts|now constructor].
Qed.

Theorem tree_exists F n : wf_forest F -> acyclic F -> exists t, t_node t = n /\ tree_at F t.
Proof.
  intros W (rank & B & Hb & Hr).
  remember (B - rank n) as k eqn:Hk. revert n Hk.
  induction k as [k IH] using (well_founded_induction Wf_nat.lt_wf). intros n ->.
  destruct (trees_of_list F (children_of F n)) as (ts & Hts & Hall).
  - intros c Hc. apply (wf_child F W) in Hc. apply Hr in Hc. pose proof (Hb c).
    apply (IH (B - rank c)); [lia|reflexivity].
  - exists (T n ts). split; [easy|]. now constructor.
Qed.

(* induction on trees *)
Lemma tree_ind' (P : tree -> Prop) :
  (forall n ts, Forall P ts -> P (T n ts)) -> forall t, P t.
Proof.
  intros H. fix IH 1. intros [n ts]. apply H.
  induction ts as [|t ts IHts]; constructor; [apply IH|exact IHts].
Qed.

Lemma tree_at_unique F t1 : tree_at F t1 -> forall t2, tree_at F t2 -> t_node t1 = t_node t2 -> t1 = t2.
Proof.
  induction t1 as [n ts IH] using tree_ind'. intros H1 [n2 ts2] H2 E. cbn in E. subst n2.
  inversion H1 as [? ? E1 A1]; subst. inversion H2 as [? ? E2 A2]; subst.
  f_equal. rewrite E1 in E2. clear H1 H2 E1.
  revert ts2 A2 E2. induction ts as [|t ts IHts]; intros [|t2 ts2] A2 E2; cbn in E2; try easy.
  injection E2 as Et Ets. inversion IH; subst. inversion A1; subst. inversion A2; subst.
  f_equal; [now apply H1|]. now apply IHts.
Qed.

Lemma tree_at_children F t : tree_at F t -> children_of F (t_node t) = map t_node (t_kids t).
Proof. now intros []. Qed.

Lemma preorder_anc F t m : wf_forest F -> tree_at F t -> In m (preorder t) -> anc_or_self F (t_node t) m.
Proof.
  intros W. revert m. induction t as [n ts IH] using tree_ind'. intros m Hat Hm.
  inversion Hat as [? ? E Hall]; subst. cbn in Hm. destruct Hm as [->|Hm]; [constructor|].
  apply in_flat_map in Hm. destruct Hm as (t & Ht & Hm).
  rewrite Forall_forall in IH, Hall. specialize (IH t Ht m (Hall t Ht) Hm).
  eapply anc_trans; [|exact IH]. apply anc_parent. apply (wf_child F W). cbn [t_node]. rewrite E. now apply in_map.
Qed.

Lemma preorder_self t : In (t_node t) (preorder t).
Proof. destruct t. now left. Qed.

Lemma preorder_down F t m c : wf_forest F -> tree_at F t -> In m (preorder t) ->
  In c (children_of F m) -> In c (preorder t).
Proof.
  intros W. revert m. induction t as [n ts IH] using tree_ind'. intros m Hat Hm Hc.
  inversion Hat as [? ? E Hall]; subst. cbn in Hm |- *. destruct Hm as [->|Hm].
  - right. rewrite E in Hc. apply in_map_iff in Hc. destruct Hc as (t & <- & Ht).
    apply in_flat_map. exists t. split; [easy|apply preorder_self].
  - right. apply in_flat_map in Hm. destruct Hm as (t & Ht & Hm).
    apply in_flat_map. exists t. split; [easy|].
    rewrite Forall_forall in IH, Hall. eapply IH; eauto.
Qed.

Theorem preorder_iff F t m : wf_forest F -> tree_at F t ->
  In m (preorder t) <-> anc_or_self F (t_node t) m.
Proof.
  intros W Hat. split; [now apply preorder_anc|].
  intros H. remember (t_node t) as a eqn:Ha. induction H as [n|a n p Hp H IH].
  - subst. apply preorder_self.
  - apply (preorder_down F t p n W Hat); [now apply IH|]. now apply parent_child.
Qed.

(* every node of a finite tree has a tree of its own, which is not larger *)
Lemma subtree_at F t m : tree_at F t -> In m (preorder t) ->
  exists u, t_node u = m /\ tree_at F u /\ length (preorder u) <= length (preorder t).
Proof.
  revert m. induction t as [n ts IH] using tree_ind'. intros m Hat [<-|H].
  - exists (T n ts). easy.
  - inversion Hat as [? ? E Hall]; subst. apply in_flat_map in H. destruct H as (c & Hc & Hm).
    rewrite Forall_forall in IH, Hall. destruct (IH c Hc m (Hall c Hc) Hm) as (u & Hu & Ha & Hl).
    exists u. split; [easy|]. split; [easy|]. cbn. clear - Hc Hl.
    induction ts as [|d ts IHts]; [easy|]. cbn. rewrite app_length. destruct Hc as [->|Hc]; [lia|].
    specialize (IHts Hc). lia.
Qed.

(* a node with a finite tree is on no cycle *)
Lemma tree_no_loop F t a : wf_forest F -> tree_at F t -> anc_or_self F a (t_node t) ->
  parent_of F a = Some (t_node t) -> False.
Proof.
  intros W Hat Ha Hp. apply (parent_child F W) in Hp. destruct t as [n ts]. cbn [t_node] in *.
  inversion Hat as [? ? E Hall]; subst. rewrite E in Hp. apply in_map_iff in Hp. destruct Hp as (c & <- & Hc).
  rewrite Forall_forall in Hall. apply (preorder_iff F c n W (Hall c Hc)) in Ha.
  destruct (subtree_at F c n (Hall c Hc) Ha) as (u & Hu & Hau & Hl).
  assert (u = T n ts) by now apply (tree_at_unique F u Hau (T n ts) Hat). subst u.
  cbn in Hl. clear - Hc Hl. assert (length (preorder c) <= length (flat_map preorder ts)); [|lia].
  clear Hl. induction ts as [|d ts IH]; [easy|]. cbn. rewrite app_length. destruct Hc as [->|Hc]; [lia|].
  specialize (IH Hc). lia.
Qed.

Lemma anc_child F n x : wf_forest F -> anc_or_self F n x -> x = n \/
  exists c, In c (children_of F n) /\ anc_or_self F c x.
Proof.
  intros W H. induction H as [|a m q Hq H IH]; [now left|]. right. destruct IH as [->|(c & Hc & Hx)].
  - exists m. split; [now apply parent_child|constructor].
  - exists c. split; [easy|]. eapply aos_up; eauto.
Qed.

Lemma tree_antisym F t y : wf_forest F -> tree_at F t -> anc_or_self F y (t_node t) -> anc_or_self F (t_node t) y ->
  y = t_node t.
Proof.
  intros W Hat H1 H2. destruct (anc_child F _ y W H2) as [->|(c & Hc & Hx)]; [easy|]. exfalso.
  apply (tree_no_loop F t c W Hat); [|now apply (wf_child F W)]. now apply anc_trans with y.
Qed.

Lemma tree_parent_neq F t : wf_forest F -> tree_at F t -> parent_of F (t_node t) <> Some (t_node t).
Proof. intros W Hat H. apply (tree_no_loop F t (t_node t) W Hat); [constructor|easy]. Qed.

Theorem preorder_nodup F t : wf_forest F -> tree_at F t -> NoDup (preorder t).
Proof.
  intros W. induction t as [n ts IH] using tree_ind'. intros Hat.
  inversion Hat as [? ? E Hall]; subst. cbn. constructor.
  - intros H. apply in_flat_map in H. destruct H as (t & Ht & Hm).
    rewrite Forall_forall in Hall.
    apply (preorder_anc F t n W (Hall t Ht)) in Hm.
    apply (tree_no_loop F (T n ts) (t_node t) W Hat Hm). cbn [t_node]. apply (wf_child F W). rewrite E. now apply in_map.
  - pose proof (children_nodup F W n) as Hnd. rewrite E in Hnd.
    assert (Hpar : forall t, In t ts -> parent_of F (t_node t) = Some n).
    { intros t Ht. apply (wf_child F W). rewrite E. now apply in_map. }
    pose proof (fun a => tree_no_loop F (T n ts) a W Hat) as A. cbn [t_node] in A. clear E Hat. induction ts as [|t ts IHts]; cbn; [constructor|].
    inversion IH; subst. inversion Hall; subst. cbn in Hnd. inversion Hnd; subst.
    assert (Hdis : forall x, In x (preorder t) -> ~ In x (flat_map preorder ts)).
    { intros x Hx Hx2. apply in_flat_map in Hx2. destruct Hx2 as (t2 & Ht2 & Hx2).
      rewrite Forall_forall in H4.
      apply (preorder_anc F t x W H3) in Hx. apply (preorder_anc F t2 x W (H4 t2 Ht2)) in Hx2.
      assert (Hp1 := Hpar t (or_introl eq_refl)). assert (Hp2 := Hpar t2 (or_intror Ht2)).
      assert (Hne : t_node t <> t_node t2).
      { intros He. apply H5. rewrite He. now apply in_map. }
      destruct (anc_linear F _ _ _ Hx Hx2) as [Hl|Hl].
      - inversion Hl as [|? ? p Hp Hl']; subst; [congruence|]. rewrite Hp2 in Hp.
        injection Hp as <-. exact (A _ Hl' Hp1).
      - inversion Hl as [|? ? p Hp Hl']; subst; [congruence|]. rewrite Hp1 in Hp.
        injection Hp as <-. exact (A _ Hl' Hp2). }
    assert (IHn : NoDup (flat_map preorder ts)).
    { apply IHts; try easy. intros t2 Ht2. apply Hpar. now right. }
    specialize (H1 H3). clear - H1 IHn Hdis.
    induction (preorder t) as [|x l IHl]; cbn; [easy|].
    inversion H1; subst. constructor.
    + rewrite in_app_iff. intros [Hx|Hx]; [easy|]. apply (Hdis x); [now left|easy].
    + apply IHl; [easy|]. intros y Hy. apply Hdis. now right.
Qed.
