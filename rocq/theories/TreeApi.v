(* From the refinement theorems to the statements of TreeSpec.v. *)
From Coq Require Import List Bool PeanoNat Lia.
From Verif Require Import Base Links Tree ForestSpec ListFacts TreeProofs ForestFacts TreeSpec.
Import ListNotations.

Lemma shows_Rep L F : shows L F <-> Rep L F.
Proof. split; intros []; split; auto. Qed.

(* ---- the forest is determined by navigation *)
Lemma chain_unique (nx : nid -> option nid) : forall l l', NoDup l -> NoDup l' -> hd_error l = hd_error l' ->
  (forall x, In x l -> succ_in x l = nx x) -> (forall x, In x l' -> succ_in x l' = nx x) -> l = l'.
Proof.
  induction l as [|x l IH]; intros [|y l'] N N' Hh H H'; try easy. cbn in Hh. injection Hh as <-.
  f_equal. inversion N as [|? ? Hx N1]; subst. inversion N' as [|? ? Hx' N1']; subst. apply IH; auto.
  - pose proof (H x (or_introl eq_refl)) as E. pose proof (H' x (or_introl eq_refl)) as E'.
    cbn in E, E'. rewrite Nat.eqb_refl in E, E'. congruence.
  - intros y Hy. rewrite <- (H y (or_intror Hy)). cbn. destruct (Nat.eqb_spec x y); [now subst|easy].
  - intros y Hy. rewrite <- (H' y (or_intror Hy)). cbn. destruct (Nat.eqb_spec x y); [now subst|easy].
Qed.

Lemma NoDup_app_remove_l (l1 l2 : list nid) : NoDup (l1 ++ l2) -> NoDup l2.
Proof. induction l1; [easy|]. intros N. inversion N; auto. Qed.

Lemma suffix_succ l1 n l2 x : NoDup (l1 ++ n :: l2) -> In x (n :: l2) ->
  succ_in x (n :: l2) = succ_in x (l1 ++ n :: l2).
Proof.
  intros N Hx. rewrite succ_in_app_r; [easy|]. intros Hx1.
  apply in_split in Hx1. destruct Hx1 as (a & b & ->). rewrite <- app_assoc in N. cbn in N.
  apply NoDup_remove_2 in N. apply N. apply in_app_iff. right. apply in_app_iff. now right.
Qed.

Theorem shows_unique L F F' : shows L F -> shows L F' ->
  (forall n, parent_of F n = parent_of F' n) /\ (forall n, children_of F n = children_of F' n) /\
  (forall n, siblings_of F n = siblings_of F' n).
Proof.
  intros S S'. pose proof (sh_wf L F S) as W. pose proof (sh_wf L F' S') as W'. split; [|split]; intros n.
  - now rewrite <- (sh_parent L F S), (sh_parent L F' S').
  - apply (chain_unique (next_sibling L)); auto using children_nodup.
    + now rewrite <- (sh_first L F S), (sh_first L F' S').
    + intros x Hx. rewrite (sh_next L F S). now rewrite (wf_parent F W x n (wf_child F W n x Hx)).
    + intros x Hx. rewrite (sh_next L F' S'). now rewrite (wf_parent F' W' x n (wf_child F' W' n x Hx)).
  - destruct (in_split n _ (wf_self F W n)) as (a & b & E). destruct (in_split n _ (wf_self F' W' n)) as (a' & b' & E').
    pose proof (wf_nodup F W n) as N. pose proof (wf_nodup F' W' n) as N'.
    assert (Hs : n :: b = n :: b').
    { rewrite E in N. rewrite E' in N'.
      apply (chain_unique (next_sibling L)); [eapply NoDup_app_remove_l; eauto|eapply NoDup_app_remove_l; eauto|easy|..].
      - intros x Hx. rewrite (suffix_succ a n b x N Hx), <- E, (sh_next L F S).
        f_equal. symmetry. apply (wf_share F W). rewrite E. apply in_app_iff. now right.
      - intros x Hx. rewrite (suffix_succ a' n b' x N' Hx), <- E', (sh_next L F' S').
        f_equal. symmetry. apply (wf_share F' W'). rewrite E'. apply in_app_iff. now right. }
    assert (Hp : n :: rev a = n :: rev a').
    { apply NoDup_rev in N. apply NoDup_rev in N'.
      assert (R : rev (siblings_of F n) = rev b ++ n :: rev a) by (rewrite E, rev_app_distr; cbn; now rewrite <- app_assoc).
      assert (R' : rev (siblings_of F' n) = rev b' ++ n :: rev a') by (rewrite E', rev_app_distr; cbn; now rewrite <- app_assoc).
      rewrite R in N. rewrite R' in N'.
      apply (chain_unique (previous_sibling L)); [eapply NoDup_app_remove_l; eauto|eapply NoDup_app_remove_l; eauto|easy|..].
      - intros x Hx. rewrite (suffix_succ _ n _ x N Hx), <- R, (sh_prev L F S). unfold pred_in.
        f_equal. f_equal. symmetry. apply (wf_share F W). apply in_rev. rewrite R. apply in_app_iff. now right.
      - intros x Hx. rewrite (suffix_succ _ n _ x N' Hx), <- R', (sh_prev L F' S'). unfold pred_in.
        f_equal. f_equal. symmetry. apply (wf_share F' W'). apply in_rev. rewrite R'. apply in_app_iff. now right. }
    injection Hs as ->. injection Hp as Hp. apply (f_equal (@rev nid)) in Hp. rewrite !rev_involutive in Hp.
    subst. congruence.
Qed.

(* ---- effects *)
Lemma own_children F n : wf_forest F -> parent_of F n <> Some n -> rm n (children_of F n) = children_of F n.
Proof. intros W H. apply rm_notin. intros Hin. now apply (wf_child F W) in Hin. Qed.

Lemma detached_f n F : wf_forest F -> detached n F (f_detach n F).
Proof.
  intros W. unfold detached. cbn [f_detach parent_of siblings_of]. rewrite Nat.eqb_refl. split; [easy|]. split; [easy|].
  split; cbn [f_detach parent_of siblings_of children_of].
  - intros m Hm. destruct (Nat.eqb_spec m n); easy.
  - easy.
  - intros H _. now apply own_children.
  - intros m Hm _ _. destruct (Nat.eqb_spec m n); easy.
Qed.

Lemma appended_f p n F : wf_forest F -> appended p n F (f_append p n F).
Proof.
  intros W. unfold appended. rewrite (parent_append p n F n W), Nat.eqb_refl. split; [easy|].
  rewrite children_append, Nat.eqb_refl. split; [easy|]. split.
  - intros m Hm. rewrite (parent_append p n F m W). destruct (Nat.eqb_spec m n); easy.
  - intros q Hq. rewrite children_append. destruct (Nat.eqb_spec q p); easy.
  - intros H Hq. rewrite children_append. destruct (Nat.eqb_spec n p); [easy|]. now apply own_children.
  - intros m Hm Hp _. unfold f_append. cbn [f_set_children f_detach siblings_of children_of].
    destruct (mem m _) eqn:E; [|destruct (Nat.eqb_spec m n); easy].
    apply mem_In, in_app_iff in E. destruct E as [E|[E|[]]]; [|now subst].
    apply in_rm in E. destruct E as [E _]. apply (wf_child F W) in E. congruence.
Qed.

Lemma prepended_f p n F : wf_forest F -> prepended p n F (f_prepend p n F).
Proof.
  intros W. unfold prepended. rewrite (parent_prepend p n F n W), Nat.eqb_refl. split; [easy|].
  rewrite children_prepend, Nat.eqb_refl. split; [easy|]. split.
  - intros m Hm. rewrite (parent_prepend p n F m W). destruct (Nat.eqb_spec m n); easy.
  - intros q Hq. rewrite children_prepend. destruct (Nat.eqb_spec q p); easy.
  - intros H Hq. rewrite children_prepend. destruct (Nat.eqb_spec n p); [easy|]. now apply own_children.
  - intros m Hm Hp _. unfold f_prepend. cbn [f_set_children f_detach siblings_of children_of].
    destruct (mem m _) eqn:E; [|destruct (Nat.eqb_spec m n); easy].
    apply mem_In in E. destruct E as [E|E]; [now subst|].
    apply in_rm in E. destruct E as [E _]. apply (wf_child F W) in E. congruence.
Qed.

Lemma siblings_insert_after a n F : wf_forest F -> a <> n ->
  siblings_of (f_insert_after a n F) a = ins_after a n (rm n (siblings_of F a)).
Proof.
  intros W Han. unfold f_insert_after. cbn. destruct (Nat.eqb_spec a n) as [|_]; [easy|].
  assert (Ha : In a (rm n (siblings_of F a))) by (apply in_rm; split; [apply W|easy]).
  destruct (mem a _) eqn:E; [easy|]. apply mem_not_In in E. exfalso. apply E.
  apply (in_ins_after _ _ _ _ Ha). now right.
Qed.
Lemma siblings_insert_before a n F : wf_forest F -> a <> n ->
  siblings_of (f_insert_before a n F) a = ins_before a n (rm n (siblings_of F a)).
Proof.
  intros W Han. unfold f_insert_before. cbn. destruct (Nat.eqb_spec a n) as [|_]; [easy|].
  assert (Ha : In a (rm n (siblings_of F a))) by (apply in_rm; split; [apply W|easy]).
  destruct (mem a _) eqn:E; [easy|]. apply mem_not_In in E. exfalso. apply E.
  apply (in_ins_before _ _ _ _ Ha). now right.
Qed.

Lemma inserted_after_f a n F : wf_forest F -> a <> n -> inserted_after a n F (f_insert_after a n F).
Proof.
  intros W Han. unfold inserted_after. rewrite (parent_insert_after a n F n W Han), Nat.eqb_refl. split; [easy|].
  assert (Ha : In a (rm n (siblings_of F a))) by (apply in_rm; split; [apply W|easy]).
  rewrite (siblings_insert_after a n F W Han). split.
  { destruct (in_split_first a _ Ha) as (l1 & l2 & E & Hn). exists l1, l2. split; [easy|].
    rewrite E. now apply ins_after_split. }
  split.
  - intros m Hm. rewrite (parent_insert_after a n F m W Han). destruct (Nat.eqb_spec m n); easy.
  - intros q Hq. rewrite (children_insert_after a n F q Han). destruct (parent_of F a) as [p|]; [|easy].
    destruct (Nat.eqb_spec q p); congruence.
  - intros H Hq. rewrite (children_insert_after a n F n Han). destruct (parent_of F a) as [p|].
    + destruct (Nat.eqb_spec n p); [congruence|]. now apply own_children.
    + now apply own_children.
  - intros m Hm _ Hq. unfold f_insert_after. cbn [f_set_siblings f_detach siblings_of children_of].
    destruct (Nat.eqb_spec a n) as [|_]; [easy|]. destruct (mem m _) eqn:E; [|destruct (Nat.eqb_spec m n); easy].
    apply mem_In, (in_ins_after _ _ _ _ Ha) in E. destruct E as [E|E]; [easy|].
    apply in_rm in E. now destruct E.
Qed.
Lemma inserted_before_f a n F : wf_forest F -> a <> n -> inserted_before a n F (f_insert_before a n F).
Proof.
  intros W Han. unfold inserted_before. rewrite (parent_insert_before a n F n W Han), Nat.eqb_refl. split; [easy|].
  assert (Ha : In a (rm n (siblings_of F a))) by (apply in_rm; split; [apply W|easy]).
  rewrite (siblings_insert_before a n F W Han). split.
  { destruct (in_split_first a _ Ha) as (l1 & l2 & E & Hn). exists l1, l2. split; [easy|].
    rewrite E. now apply ins_before_split. }
  split.
  - intros m Hm. rewrite (parent_insert_before a n F m W Han). destruct (Nat.eqb_spec m n); easy.
  - intros q Hq. rewrite (children_insert_before a n F q Han). destruct (parent_of F a) as [p|]; [|easy].
    destruct (Nat.eqb_spec q p); congruence.
  - intros H Hq. rewrite (children_insert_before a n F n Han). destruct (parent_of F a) as [p|].
    + destruct (Nat.eqb_spec n p); [congruence|]. now apply own_children.
    + now apply own_children.
  - intros m Hm _ Hq. unfold f_insert_before. cbn [f_set_siblings f_detach siblings_of children_of].
    destruct (Nat.eqb_spec a n) as [|_]; [easy|]. destruct (mem m _) eqn:E; [|destruct (Nat.eqb_spec m n); easy].
    apply mem_In, (in_ins_before _ _ _ _ Ha) in E. destruct E as [E|E]; [easy|].
    apply in_rm in E. now destruct E.
Qed.

Lemma detach_effect n L L' F : shows L F -> detach [] n L = Ok L' -> exists F', shows L' F' /\ detached n F F'.
Proof.
  intros S E. apply shows_Rep in S. pose proof (detach_refines [] n L F S) as H.
  destruct (_ || _); [congruence|]. destruct H as (L1 & E1 & R & _). rewrite E in E1. injection E1 as <-.
  exists (f_detach n F). split; [now apply shows_Rep|]. apply detached_f, S.
Qed.
Lemma append_effect p n L L' F : shows L F -> append [] p n L = Ok L' -> exists F', shows L' F' /\ appended p n F F'.
Proof.
  intros S E. apply shows_Rep in S. pose proof (append_refines [] p n L F S) as H.
  destruct (Nat.eqb p n); [congruence|]. destruct (append_conflict _ _ _ _); [congruence|].
  destruct H as (L1 & E1 & R & _). rewrite E in E1. injection E1 as <-.
  exists (f_append p n F). split; [now apply shows_Rep|]. apply appended_f, S.
Qed.
Lemma prepend_effect p n L L' F : shows L F -> prepend [] p n L = Ok L' -> exists F', shows L' F' /\ prepended p n F F'.
Proof.
  intros S E. apply shows_Rep in S. pose proof (prepend_refines [] p n L F S) as H.
  destruct (Nat.eqb p n); [congruence|]. destruct (prepend_conflict _ _ _ _); [congruence|].
  destruct H as (L1 & E1 & R & _). rewrite E in E1. injection E1 as <-.
  exists (f_prepend p n F). split; [now apply shows_Rep|]. apply prepended_f, S.
Qed.
Lemma insert_after_effect p n L L' F : shows L F -> insert_after [] p n L = Ok L' ->
  exists F', shows L' F' /\ inserted_after p n F F'.
Proof.
  intros S E. apply shows_Rep in S. pose proof (insert_after_refines [] p n L F S) as H.
  destruct (Nat.eqb_spec p n); [congruence|]. destruct (insert_after_conflict _ _ _ _); [congruence|].
  destruct H as (L1 & E1 & R & _). rewrite E in E1. injection E1 as <-.
  exists (f_insert_after p n F). split; [now apply shows_Rep|]. apply inserted_after_f; [apply S|easy].
Qed.
Lemma insert_before_effect p n L L' F : shows L F -> insert_before [] p n L = Ok L' ->
  exists F', shows L' F' /\ inserted_before p n F F'.
Proof.
  intros S E. apply shows_Rep in S. pose proof (insert_before_refines [] p n L F S) as H.
  destruct (Nat.eqb_spec p n); [congruence|]. destruct (insert_before_conflict _ _ _ _); [congruence|].
  destruct H as (L1 & E1 & R & _). rewrite E in E1. injection E1 as <-.
  exists (f_insert_before p n F). split; [now apply shows_Rep|]. apply inserted_before_f; [apply S|easy].
Qed.

(* ---- when the calls panic *)
Lemma touches_adjoining L F n x : Rep L F -> touches L n x <-> In x (adjoining F n).
Proof.
  intros R. unfold touches, next_sibling, previous_sibling, parent.
  rewrite (r_next L F R), (r_prev L F R), (r_parent L F R). unfold adjoining. rewrite in_app_iff.
  destruct (succ_in n _) as [a|], (pred_in n _) as [b|], (parent_of F n) as [p|]; cbn;
    split; intuition (try congruence); try (left; congruence); try (right; congruence).
Qed.

Lemma adjoining_not_self F n : wf_forest F -> parent_of F n <> Some n -> ~ In n (adjoining F n).
Proof.
  intros W H. unfold adjoining. rewrite in_app_iff. intros [Hi|Hi].
  - destruct (succ_in n _) as [a|] eqn:E.
    + destruct Hi as [->|[]]. now apply succ_in_neq in E; [|apply (wf_nodup F W)].
    + destruct (parent_of F n) as [p|]; [|easy]. destruct Hi as [->|[]]. easy.
  - destruct (pred_in n _) as [a|] eqn:E.
    + destruct Hi as [->|[]]. now apply pred_in_neq in E; [|apply (wf_nodup F W)].
    + destruct (parent_of F n) as [p|]; [|easy]. destruct Hi as [->|[]]. easy.
Qed.

Lemma bool_cases (b : bool) (P : Prop) : b = true <-> P -> (b = true /\ P) \/ (b = false /\ ~ P).
Proof. destruct b; intros H; [left|right]; intuition congruence. Qed.

Section Panics.
  Context (L : links) (F : forest) (R : Rep L F).
  Let W : wf_forest F := r_wf L F R.

  Lemma conflict_touch p n :
    existsb (fun x => mem x [n; p]) (adjoining F n) = true <-> touches L n p \/ touches L n n.
  Proof.
    rewrite !(touches_adjoining L F n _ R), existsb_exists. split.
    - intros (x & Hx & Hm). apply mem_In in Hm. destruct Hm as [<-|[<-|[]]]; auto.
    - intros [H|H]; [exists p|exists n]; (split; [easy|]); apply mem_In; cbn; auto.
  Qed.
  Lemma detach_touch n : existsb (fun x => mem x [n]) (adjoining F n) = true <-> touches L n n.
  Proof.
    rewrite !(touches_adjoining L F n _ R), existsb_exists. split.
    - intros (x & Hx & Hm). apply mem_In in Hm. destruct Hm as [<-|[]]; auto.
    - intros H. exists n. split; [easy|]. apply mem_In; cbn; auto.
  Qed.

  (* the shape shared by the four calls: same node, a conflict, or success *)
  Definition outcomes (same conflict : Prop) (r : res links) : Prop :=
    (same -> r = Panic PAssert) /\ (~ same -> conflict -> r = Panic PBorrow) /\
    (~ same -> ~ conflict -> exists L', r = Ok L').
  Lemma outcomes_of (p n : nid) (conflict : bool) (Q : Prop) (r : res links) (P : links -> Prop) :
    (if Nat.eqb p n then r = Panic PAssert else if conflict then r = Panic PBorrow else exists L', r = Ok L' /\ P L') ->
    (p <> n -> conflict = true <-> Q) -> outcomes (p = n) Q r.
  Proof.
    intros H HQ. unfold outcomes. destruct (Nat.eqb_spec p n) as [E|E]; [easy|]. split; [easy|].
    specialize (HQ E). destruct conflict.
    - split; [easy|]. intros _ Hn. exfalso. apply Hn. now apply HQ.
    - split; [|intros _ _; destruct H as (L' & H & _); eauto]. intros _ Hq. apply HQ in Hq. discriminate.
  Qed.

  Lemma touch_prev n x : previous_sibling L n = Some x -> touches L n x.
  Proof. unfold touches. auto. Qed.
  Lemma touch_next n x : next_sibling L n = Some x -> touches L n x.
  Proof. unfold touches. auto. Qed.

  Theorem append_total p n : outcomes (p = n) (touches L n p \/ touches L n n \/ last_child L p = Some p) (append [] p n L).
  Proof.
    eapply outcomes_of; [apply (append_refines [] p n L F R)|]. intros Hp. unfold append_conflict.
    change (mem p []) with false. rewrite mem_cons. change (mem n []) with false.
    destruct (Nat.eqb_spec n p) as [|_]; [congruence|]. cbn [orb].
    rewrite orb_true_iff, conflict_touch. rewrite or_assoc. cbn [f_detach children_of].
    rewrite last_error_rm by (apply children_nodup; exact W). unfold last_child. rewrite (r_last L F R).
    destruct (last_error (children_of F p)) as [x|] eqn:E; cbn [onid_eqb]; [|split; intuition discriminate].
    assert (Hx : In x (children_of F p)) by now apply last_error_In.
    destruct (Nat.eqb_spec x n) as [->|Hx'].
    - pose proof (child_siblings F W p n Hx) as Hs. rewrite <- Hs. rewrite <- (r_prev L F R).
      assert (Hcong : Some n = Some p -> False) by congruence.
      destruct (l_prev L n) as [y|] eqn:Ey; [|split; intuition discriminate].
      rewrite mem_In. split.
      + intros [H|[H|[<-|[]]]]; auto. left. now apply touch_prev.
      + intros [H|[H|H]]; auto. contradiction.
    - rewrite mem_In. split; intros [H|[H|H]]; auto.
      + destruct H as [<-|[]]. auto.
      + injection H as ->. right. right. now left.
  Qed.

  Theorem prepend_total p n : outcomes (p = n) (touches L n p \/ touches L n n \/ first_child L p = Some p) (prepend [] p n L).
  Proof.
    eapply outcomes_of; [apply (prepend_refines [] p n L F R)|]. intros Hp. unfold prepend_conflict.
    change (mem p []) with false. rewrite mem_cons. change (mem n []) with false.
    destruct (Nat.eqb_spec n p) as [|_]; [congruence|]. cbn [orb].
    rewrite orb_true_iff, conflict_touch. rewrite or_assoc. cbn [f_detach children_of].
    rewrite hd_error_rm by (apply children_nodup; exact W). unfold first_child. rewrite (r_first L F R).
    destruct (hd_error (children_of F p)) as [x|] eqn:E; cbn [onid_eqb]; [|split; intuition discriminate].
    assert (Hx : In x (children_of F p)) by now apply hd_error_In.
    destruct (Nat.eqb_spec x n) as [->|Hx'].
    - pose proof (child_siblings F W p n Hx) as Hs. rewrite <- Hs. rewrite <- (r_next L F R).
      assert (Hcong : Some n = Some p -> False) by congruence.
      destruct (l_next L n) as [y|] eqn:Ey; [|split; intuition discriminate].
      pose proof (Rep_next_neq L F n R) as Hne. rewrite mem_In. split.
      + intros [H|[H|[<-|[<-|[]]]]]; auto; [congruence|]. left. now apply touch_next.
      + intros [H|[H|H]]; auto. contradiction.
    - rewrite mem_In. split; intros [H|[H|H]]; auto.
      + destruct H as [H|[<-|[]]]; [congruence|]. auto.
      + injection H as ->. right. right. right. now left.
  Qed.

  Theorem insert_after_total a n :
    outcomes (a = n) (touches L n a \/ touches L n n \/
      next_sibling L a = None /\ (parent L a = Some n \/ parent L a = Some a)) (insert_after [] a n L).
  Proof.
    eapply outcomes_of; [apply (insert_after_refines [] a n L F R)|]. intros Hp. unfold insert_after_conflict.
    change (mem a []) with false. rewrite mem_cons. change (mem n []) with false.
    destruct (Nat.eqb_spec n a) as [|_]; [congruence|]. cbn [orb].
    rewrite orb_true_iff, conflict_touch. rewrite or_assoc. cbn [f_detach siblings_of parent_of].
    destruct (Nat.eqb_spec a n) as [|_]; [easy|]. rewrite succ_in_rm by (apply W || easy).
    unfold next_sibling, parent. rewrite (r_next L F R), (r_parent L F R).
    assert (Hpar : match parent_of F a with Some p => mem p [n; a] | None => false end = true <->
        (parent_of F a = Some n \/ parent_of F a = Some a)).
    { destruct (parent_of F a) as [q|]; [|intuition discriminate]. rewrite mem_In. cbn.
      split; [intros [H|[H|[]]]; subst; auto|]. intros [H|H]; injection H as ->; auto. }
    assert (Hmem : forall x, x <> n -> x <> a -> mem x [n; a] = true -> False).
    { intros x H1 H2 H3. apply mem_In in H3. destruct H3 as [H3|[H3|[]]]; congruence. }
    destruct (succ_in a (siblings_of F a)) as [x|] eqn:E; cbn [onid_eqb].
    - destruct (Nat.eqb_spec x n) as [->|Hx].
      + (* the node is the next sibling of the other one, which it touches *)
        assert (T : touches L n a).
        { apply touch_prev. unfold previous_sibling. rewrite (r_prev L F R).
          pose proof (succ_in_In _ _ _ E) as (_ & Hin). destruct (wf_share F W a n Hin) as (-> & _).
          apply succ_to_pred; [apply W|exact E]. }
        split; auto.
      + split; [|intuition discriminate]. intros [H|[H|H]]; auto. exfalso. apply (Hmem x); auto.
        apply succ_in_neq in E; [auto|apply W].
    - rewrite Hpar. intuition auto.
  Qed.

  Theorem insert_before_total a n :
    outcomes (a = n) (touches L n a \/ touches L n n \/
      previous_sibling L a = None /\ parent L a = Some a) (insert_before [] a n L).
  Proof.
    eapply outcomes_of; [apply (insert_before_refines [] a n L F R)|]. intros Hp. unfold insert_before_conflict.
    change (mem a []) with false. rewrite mem_cons. change (mem n []) with false.
    destruct (Nat.eqb_spec n a) as [|_]; [congruence|]. cbn [orb].
    rewrite orb_true_iff, conflict_touch. rewrite or_assoc. cbn [f_detach siblings_of parent_of].
    destruct (Nat.eqb_spec a n) as [|_]; [easy|]. rewrite pred_in_rm by (apply W || easy).
    unfold previous_sibling, parent. rewrite (r_prev L F R), (r_parent L F R).
    assert (Hpar : match parent_of F a with Some p => mem p [a] | None => false end = true <-> parent_of F a = Some a).
    { destruct (parent_of F a) as [q|]; [|intuition discriminate]. rewrite mem_In. cbn.
      split; [intros [H|[]]; subst; auto|]. intros H; injection H as ->; auto. }
    destruct (pred_in a (siblings_of F a)) as [x|] eqn:E; cbn [onid_eqb].
    - destruct (Nat.eqb_spec x n) as [->|Hx].
      + assert (T : touches L n a).
        { apply touch_next. unfold next_sibling. rewrite (r_next L F R).
          pose proof (pred_in_In _ _ _ E) as (_ & Hin). destruct (wf_share F W a n Hin) as (-> & _).
          apply pred_to_succ; [apply W|exact E]. }
        split; auto.
      + split; [|intuition discriminate]. intros [H|[H|H]]; auto. exfalso. apply mem_In in H. destruct H as [<-|[]].
        apply pred_in_neq in E; [auto|apply W].
    - rewrite Hpar. intuition auto.
  Qed.

  Theorem detach_total n : (touches L n n -> detach [] n L = Panic PBorrow) /\
    (~ touches L n n -> exists L', detach [] n L = Ok L').
  Proof.
    pose proof (detach_refines [] n L F R) as H. change (mem n []) with false in H. cbn [orb] in H.
    destruct (bool_cases _ _ (detach_touch n)) as [(E & T)|(E & T)]; rewrite E in H.
    - split; easy.
    - split; [easy|]. intros _. destruct H as (L' & H & _). eauto.
  Qed.

  (* no such extra conflicts without cycles *)
  Lemma acyclic_no_self : acyclic F -> forall n, parent L n <> Some n /\ ~ touches L n n /\
    last_child L n <> Some n /\ first_child L n <> Some n.
  Proof.
    intros A n. assert (Hn : parent_of F n <> Some n) by now apply acyclic_parent_neq.
    split; [unfold parent; now rewrite (r_parent L F R)|]. split; [|split].
    - rewrite (touches_adjoining L F n n R). now apply adjoining_not_self.
    - unfold last_child. rewrite (r_last L F R). intros H. apply last_error_In in H. apply (wf_child F W) in H. easy.
    - unfold first_child. rewrite (r_first L F R). intros H. apply hd_error_In in H. apply (wf_child F W) in H. easy.
  Qed.
End Panics.
