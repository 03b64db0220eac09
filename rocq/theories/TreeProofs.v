(* The structural operations of Tree.v refine the forest operations of ForestSpec.v. *)
From Coq Require Import List Bool PeanoNat Lia.
From Verif Require Import Base Links Tree ForestSpec ListFacts.
Import ListNotations.

(* The link fields of the heap describe the forest [F]. *)
Record Rep (L : links) (F : forest) : Prop := {
  r_wf     : wf_forest F;
  r_parent : forall n, l_parent L n = parent_of F n;
  r_next   : forall n, l_next L n = succ_in n (siblings_of F n);
  r_prev   : forall n, l_prev L n = pred_in n (siblings_of F n);
  r_first  : forall n, l_first L n = hd_error (children_of F n);
  r_last   : forall n, l_last L n = last_error (children_of F n)
}.

Lemma Rep_empty : Rep no_links empty_forest.
Proof.
  split; [split|..]; cbn; intros; try easy.
  - now left.
  - apply NoDup_cons; [easy|constructor].
  - destruct H as [->|[]]; easy.
  - now rewrite Nat.eqb_refl.
  - unfold pred_in. cbn. now rewrite Nat.eqb_refl.
Qed.

(* ---- facts about well formed forests *)
Section Wf.
  Context (F : forest) (W : wf_forest F).

  Lemma children_nodup p : NoDup (children_of F p).
  Proof.
    destruct (children_of F p) as [|c l] eqn:E; [constructor|].
    assert (Hc : parent_of F c = Some p) by (apply W; rewrite E; now left).
    rewrite <- E, <- (wf_parent F W c p Hc). apply W.
  Qed.

  Lemma child_siblings p c : In c (children_of F p) -> siblings_of F c = children_of F p.
  Proof. intros H. apply W. now apply W. Qed.

  Lemma parent_child c p : parent_of F c = Some p -> In c (children_of F p).
  Proof. intros H. rewrite <- (wf_parent F W c p H). apply W. Qed.

  Lemma in_siblings_sym a b : In a (siblings_of F b) -> In b (siblings_of F a).
  Proof. intros H. destruct (wf_share F W b a H) as [-> _]. apply W. Qed.

  Lemma wf_detach n : wf_forest (f_detach n F).
  Proof.
    split; cbn.
    - intros m. destruct (Nat.eqb_spec m n) as [->|]; [now left|].
      apply in_rm. split; [apply W|easy].
    - intros m. destruct (Nat.eqb m n); [apply NoDup_cons; [easy|constructor]|].
      apply NoDup_rm, W.
    - intros m k. destruct (Nat.eqb_spec m n) as [->|Hm].
      + intros [->|[]]. now rewrite Nat.eqb_refl.
      + rewrite in_rm. intros [Hk Hkn]. destruct (Nat.eqb_spec k n); [easy|].
        destruct (wf_share F W m k Hk) as [-> ->]. easy.
    - intros m p. destruct (Nat.eqb_spec m n) as [->|Hm]; [easy|].
      intros H. now rewrite (wf_parent F W m p H).
    - intros p c. rewrite in_rm. intros [H1 H2]. destruct (Nat.eqb_spec c n); [easy|].
      now apply W.
  Qed.

  (* replacing the child list of [p] by one that adds the isolated node [n] *)
  Lemma wf_set_children p n l :
    parent_of F n = None -> siblings_of F n = [n] ->
    NoDup l -> (forall x, In x l <-> x = n \/ In x (children_of F p)) ->
    wf_forest (f_set_children p l F).
  Proof.
    intros Hp Hs Hl Hin.
    assert (Hout : forall m k, mem m l = false -> In k (siblings_of F m) -> mem k l = false).
    { intros m k Hm Hk. apply mem_not_In in Hm. apply mem_not_In. rewrite Hin in *.
      intros [->|Hc].
      - apply in_siblings_sym in Hk. rewrite Hs in Hk. destruct Hk as [->|[]]. tauto.
      - apply Hm. right. rewrite <- (child_siblings p k Hc).
        now apply in_siblings_sym. }
    split; cbn.
    - intros m. destruct (mem m l) eqn:E; [now apply mem_In|apply W].
    - intros m. destruct (mem m l); [easy|apply W].
    - intros m k. destruct (mem m l) eqn:E; intros Hk.
      + apply mem_In in Hk. now rewrite Hk.
      + rewrite (Hout m k E Hk). now apply W.
    - intros m q. destruct (mem m l) eqn:E.
      + intros [= <-]. now rewrite Nat.eqb_refl.
      + intros Hq. destruct (Nat.eqb_spec q p) as [->|].
        * exfalso. apply mem_not_In in E. apply E, Hin. right. now apply parent_child.
        * now apply W.
    - intros q c. destruct (Nat.eqb_spec q p) as [->|Hq].
      + intros Hc. apply mem_In in Hc. now rewrite Hc.
      + intros Hc. destruct (mem c l) eqn:E; [|now apply W].
        apply mem_In, Hin in E. apply (wf_child F W) in Hc. destruct E as [->|E].
        * congruence.
        * apply (wf_child F W) in E. congruence.
  Qed.

  Lemma wf_set_siblings a n l :
    parent_of F n = None -> siblings_of F n = [n] ->
    NoDup l -> (forall x, In x l <-> x = n \/ In x (siblings_of F a)) ->
    wf_forest (f_set_siblings a l F).
  Proof.
    intros Hp Hs Hl Hin.
    assert (Hout : forall m k, mem m l = false -> In k (siblings_of F m) -> mem k l = false).
    { intros m k Hm Hk. apply mem_not_In in Hm. apply mem_not_In. rewrite Hin in *.
      intros [->|Hc].
      - apply in_siblings_sym in Hk. rewrite Hs in Hk. destruct Hk as [->|[]]. tauto.
      - apply Hm. right. destruct (wf_share F W a k Hc) as [<- _].
        now apply in_siblings_sym. }
    split; cbn.
    - intros m. destruct (mem m l) eqn:E; [now apply mem_In|apply W].
    - intros m. destruct (mem m l); [easy|apply W].
    - intros m k. destruct (mem m l) eqn:E; intros Hk.
      + apply mem_In in Hk. now rewrite Hk.
      + rewrite (Hout m k E Hk). now apply W.
    - intros m q. destruct (mem m l) eqn:E.
      + intros Hq. rewrite Hq. now rewrite Nat.eqb_refl.
      + intros Hq. destruct (parent_of F a) as [p|] eqn:Ea; [|now apply W].
        destruct (Nat.eqb_spec q p) as [->|]; [|now apply W].
        exfalso. apply mem_not_In in E. apply E, Hin. right.
        rewrite (wf_parent F W a p Ea). now apply parent_child.
    - intros q c. destruct (parent_of F a) as [p|] eqn:Ea.
      + destruct (Nat.eqb_spec q p) as [->|Hq].
        * intros Hc. apply mem_In in Hc. now rewrite Hc.
        * intros Hc. destruct (mem c l) eqn:E; [|now apply W].
          apply mem_In, Hin in E. apply (wf_child F W) in Hc. destruct E as [->|E].
          -- congruence.
          -- apply (wf_share F W) in E. destruct E as [_ E]. congruence.
      + intros Hc. destruct (mem c l) eqn:E; [|now apply W].
        apply mem_In, Hin in E. apply (wf_child F W) in Hc. destruct E as [->|E].
        * congruence.
        * apply (wf_share F W) in E. destruct E as [_ E]. congruence.
  Qed.
End Wf.

(* ---- detach *)
Definition oapp (o : option nid) (alt : option nid) : list nid :=
  match o with
  | Some x => [x]
  | None => match alt with Some p => [p] | None => [] end
  end.

Lemma detach_data_fields G n L :
  let nx := l_next L n in let pv := l_prev L n in let pa := l_parent L n in
  nx <> Some n -> pv <> Some n ->
  if existsb (fun x => mem x G) (oapp nx pa ++ oapp pv pa)
  then detach_data G n L = Panic PBorrow
  else exists L', detach_data G n L = Ok L' /\
    (forall m, l_root L' m = l_root L m) /\
    (forall m, l_parent L' m = if Nat.eqb m n then None else l_parent L m) /\
    (forall m, l_next L' m = if Nat.eqb m n then None
                             else if onid_eqb pv (Some m) then nx else l_next L m) /\
    (forall m, l_prev L' m = if Nat.eqb m n then None
                             else if onid_eqb nx (Some m) then pv else l_prev L m) /\
    (forall m, l_first L' m = match pv with
                              | None => if onid_eqb pa (Some m) then nx else l_first L m
                              | Some _ => l_first L m end) /\
    (forall m, l_last L' m = match nx with
                             | None => if onid_eqb pa (Some m) then pv else l_last L m
                             | Some _ => l_last L m end).
Proof.
  intros nx pv pa Hnx Hpv. unfold detach_data. fold nx pv pa.
  clearbody nx pv pa. unfold borrow_mut.
  destruct nx as [x|], pv as [y|], pa as [p|]; cbn;
    repeat match goal with
    | |- context [mem ?a G] => destruct (mem a G) eqn:?; cbn; try easy
    end;
    eexists; (split; [reflexivity|]); cbn; unfold upd;
    repeat split; intros m;
    try reflexivity;
    repeat match goal with
    | |- context [Nat.eqb ?a ?b] => destruct (Nat.eqb_spec a b); subst
    end; cbn in *; try easy; try congruence.
Qed.

Lemma adjoining_eq L F n : Rep L F ->
  adjoining F n = oapp (l_next L n) (l_parent L n) ++ oapp (l_prev L n) (l_parent L n).
Proof. intros R. rewrite (r_next L F R), (r_prev L F R), (r_parent L F R). reflexivity. Qed.

Lemma Rep_next_neq L F n : Rep L F -> l_next L n <> Some n.
Proof.
  intros R. rewrite (r_next L F R). intros H.
  apply succ_in_neq in H; [easy|]. apply (r_wf L F R).
Qed.
Lemma Rep_prev_neq L F n : Rep L F -> l_prev L n <> Some n.
Proof.
  intros R. rewrite (r_prev L F R). intros H.
  apply pred_in_neq in H; [easy|]. apply (r_wf L F R).
Qed.

(* [n] is the successor of [m] iff [m] is the predecessor of [n] *)
Lemma succ_pred_F F m n : wf_forest F ->
  succ_in m (siblings_of F m) = Some n <-> pred_in n (siblings_of F n) = Some m.
Proof.
  intros W. split; intros H.
  - destruct (succ_in_In _ _ _ H) as [_ H2].
    destruct (wf_share F W m n H2) as [-> _]. apply succ_to_pred; [apply W|easy].
  - destruct (pred_in_In _ _ _ H) as [_ H2].
    destruct (wf_share F W n m H2) as [-> _]. apply pred_to_succ; [apply W|easy].
Qed.

Lemma onid_eqb_congr a b c d : (a = Some b <-> c = Some d) -> onid_eqb a (Some b) = onid_eqb c (Some d).
Proof.
  intros H. destruct (onid_eqb a (Some b)) eqn:E1, (onid_eqb c (Some d)) eqn:E2; try easy;
    rewrite ?onid_eqb_eq in *.
  - apply H in E1. rewrite <- onid_eqb_eq in E1. congruence.
  - apply H in E2. rewrite <- onid_eqb_eq in E2. congruence.
Qed.

Theorem detach_data_refines (G : list nid) (n : nid) (L : links) (F : forest) : Rep L F ->
  if existsb (fun x => mem x G) (adjoining F n)
  then detach_data G n L = Panic PBorrow
  else exists L', detach_data G n L = Ok L' /\ Rep L' (f_detach n F) /\
       (forall m, l_root L' m = l_root L m).
Proof.
  intros R. pose proof (r_wf L F R) as W.
  rewrite (adjoining_eq L F n R).
  pose proof (detach_data_fields G n L (Rep_next_neq L F n R) (Rep_prev_neq L F n R)) as H.
  destruct (existsb _ _); [easy|].
  destruct H as (L' & HL & Hroot & Hpar & Hnext & Hprev & Hfirst & Hlast).
  exists L'. split; [easy|]. split; [|easy].
  rewrite (r_next L F R), (r_prev L F R), ?(r_parent L F R) in *.
  split.
  - now apply wf_detach.
  - intros m. rewrite Hpar. cbn. now rewrite (r_parent L F R).
  - intros m. rewrite Hnext. cbn. destruct (Nat.eqb_spec m n) as [->|Hm].
    + cbn. now rewrite Nat.eqb_refl.
    + rewrite succ_in_rm by (easy || apply W).
      rewrite (onid_eqb_congr _ _ _ _ (succ_pred_F F m n W)), (r_next L F R).
      destruct (onid_eqb _ _) eqn:E; [|easy].
      apply onid_eqb_eq in E. apply pred_in_In in E. destruct E as [_ E].
      destruct (wf_share F W n m E) as [-> _]. easy.
  - intros m. rewrite Hprev. cbn. destruct (Nat.eqb_spec m n) as [->|Hm].
    + unfold pred_in. cbn. now rewrite Nat.eqb_refl.
    + rewrite pred_in_rm by (easy || apply W).
      rewrite (onid_eqb_congr _ _ _ _ (succ_pred_F F n m W)), (r_prev L F R).
      destruct (onid_eqb _ _) eqn:E; [|easy].
      apply onid_eqb_eq in E. apply pred_in_In in E. destruct E as [_ E].
      destruct (wf_share F W m n E) as [-> _]. easy.
  - intros p. rewrite Hfirst. cbn. rewrite hd_error_rm by now apply children_nodup.
    rewrite (r_first L F R).
    destruct (onid_eqb (hd_error (children_of F p)) (Some n)) eqn:E.
    + apply onid_eqb_eq in E. pose proof (hd_error_In _ _ E) as Hin.
      rewrite <- (child_siblings F W p n Hin) in E |- *.
      apply pred_none_hd in E; [|apply W|apply W]. rewrite E.
      rewrite (wf_child F W p n Hin). cbn. now rewrite Nat.eqb_refl.
    + destruct (pred_in n (siblings_of F n)) eqn:E2; [easy|].
      destruct (onid_eqb (parent_of F n) (Some p)) eqn:E3; [|easy].
      exfalso. apply onid_eqb_eq in E3.
      apply pred_none_hd in E2; [|apply W|apply W].
      rewrite (wf_parent F W n p E3) in E2. rewrite E2 in E. cbn in E.
      now rewrite Nat.eqb_refl in E.
  - intros p. rewrite Hlast. cbn. rewrite last_error_rm by now apply children_nodup.
    rewrite (r_last L F R).
    destruct (onid_eqb (last_error (children_of F p)) (Some n)) eqn:E.
    + apply onid_eqb_eq in E. pose proof (last_error_In _ _ E) as Hin.
      rewrite <- (child_siblings F W p n Hin) in E |- *.
      apply succ_none_last in E; [|apply W|apply W]. rewrite E.
      rewrite (wf_child F W p n Hin). cbn. now rewrite Nat.eqb_refl.
    + destruct (succ_in n (siblings_of F n)) eqn:E2; [easy|].
      destruct (onid_eqb (parent_of F n) (Some p)) eqn:E3; [|easy].
      exfalso. apply onid_eqb_eq in E3.
      apply succ_none_last in E2; [|apply W|apply W].
      rewrite (wf_parent F W n p E3) in E2. rewrite E2 in E. cbn in E.
      now rewrite Nat.eqb_refl in E.
Qed.

(* ---- common state after the detach inside append, prepend, insert_* *)
Lemma detached_facts n F : wf_forest F ->
  let F1 := f_detach n F in
  wf_forest F1 /\ parent_of F1 n = None /\ siblings_of F1 n = [n] /\
  (forall p, ~ In n (children_of F1 p)) /\
  (forall m, m <> n -> ~ In n (siblings_of F1 m)).
Proof.
  intros W F1. split; [now apply wf_detach|]. cbn. rewrite Nat.eqb_refl.
  repeat split; try easy.
  - intros p. rewrite in_rm. tauto.
  - intros m Hm. destruct (Nat.eqb_spec m n); [easy|]. rewrite in_rm. tauto.
Qed.

Lemma bm_ok {A} G n (k : res A) : mem n G = false -> borrow_mut G n k = k.
Proof. unfold borrow_mut. now intros ->. Qed.
Lemma bm_fail {A} G n (k : res A) : mem n G = true -> borrow_mut G n k = Panic PBorrow.
Proof. unfold borrow_mut. now intros ->. Qed.

Ltac eqb_cases :=
  repeat match goal with
  | |- context [Nat.eqb ?a ?b] => destruct (Nat.eqb_spec a b)
  | H : context [Nat.eqb ?a ?b] |- _ => destruct (Nat.eqb_spec a b)
  end.

(* Borrow conflicts of append besides the borrow of the two nodes themselves. *)
Definition append_conflict (G : list nid) (self n : nid) (F : forest) : bool :=
  mem self G || mem n (self :: G) ||
  existsb (fun x => mem x (n :: self :: G)) (adjoining F n) ||
  match last_error (children_of (f_detach n F) self) with
  | Some lc => mem lc (self :: G)
  | None => false
  end.

Lemma Rep_set_children self n l L' F1 :
  wf_forest F1 -> parent_of F1 n = None -> siblings_of F1 n = [n] ->
  NoDup l -> (forall x, In x l <-> x = n \/ In x (children_of F1 self)) ->
  (forall m, l_parent L' m = if Nat.eqb m n then Some self else parent_of F1 m) ->
  (forall m, l_next L' m = if mem m l then succ_in m l else succ_in m (siblings_of F1 m)) ->
  (forall m, l_prev L' m = if mem m l then pred_in m l else pred_in m (siblings_of F1 m)) ->
  (forall m, l_first L' m = if Nat.eqb m self then hd_error l else hd_error (children_of F1 m)) ->
  (forall m, l_last L' m = if Nat.eqb m self then last_error l else last_error (children_of F1 m)) ->
  Rep L' (f_set_children self l F1).
Proof.
  intros W Hp Hs Hl Hin Hpar Hnext Hprev Hfirst Hlast. split.
  - now apply wf_set_children with (n := n).
  - intros m. rewrite Hpar. cbn. destruct (Nat.eqb_spec m n) as [->|Hm].
    + replace (mem n l) with true; [easy|]. symmetry. apply mem_In, Hin. now left.
    + destruct (mem m l) eqn:E; [|easy]. apply mem_In, Hin in E. destruct E as [|E]; [easy|].
      now apply W.
  - intros m. rewrite Hnext. cbn. now destruct (mem m l).
  - intros m. rewrite Hprev. cbn. now destruct (mem m l).
  - intros m. rewrite Hfirst. cbn. now destruct (Nat.eqb m self).
  - intros m. rewrite Hlast. cbn. now destruct (Nat.eqb m self).
Qed.

(* membership of a node in an edited child list decides its siblings *)
Lemma mem_children_siblings F1 p m : wf_forest F1 -> In m (children_of F1 p) ->
  siblings_of F1 m = children_of F1 p.
Proof. intros. now apply child_siblings. Qed.

Theorem append_refines (G : list nid) (self n : nid) (L : links) (F : forest) : Rep L F ->
  if Nat.eqb self n then append G self n L = Panic PAssert
  else if append_conflict G self n F then append G self n L = Panic PBorrow
  else exists L', append G self n L = Ok L' /\ Rep L' (f_append self n F) /\
       (forall m, l_root L' m = if Nat.eqb m n then Some (root_of L self) else l_root L m).
Proof.
  intros R. unfold append_conflict.
  assert (HA := eq_refl (append G self n L)). unfold append in HA at 2.
  destruct (Nat.eqb_spec self n) as [|Hsn]; [easy|].
  destruct (mem self G) eqn:EG; [now rewrite (bm_fail _ _ _ EG) in HA|rewrite (bm_ok _ _ _ EG) in HA].
  destruct (mem n (self :: G)) eqn:EN; [now rewrite (bm_fail _ _ _ EN) in HA|rewrite (bm_ok _ _ _ EN) in HA].
  cbn [orb]. pose proof (detach_data_refines (n :: self :: G) n L F R) as HD.
  destruct (existsb _ _) eqn:EX; [cbn [orb]; now rewrite HD in HA|].
  destruct HD as (L1 & HL & R1 & Hroot). rewrite HL in HA. cbn [bind orb] in HA |- *.
  destruct (detached_facts n F (r_wf _ _ R)) as (W1 & Hp1 & Hs1 & Hc1 & Hm1).
  remember (f_detach n F) as F1 eqn:HF1.
  cbn [l_last set_root set_parent] in HA.
  rewrite (r_last _ _ R1) in HA.
  pose proof (children_nodup F1 W1 self) as Hnd.
  assert (Hl : NoDup (children_of F1 self ++ [n])).
  { apply NoDup_insert; rewrite app_nil_r; [easy|apply Hc1]. }
  assert (Hin : forall x, In x (children_of F1 self ++ [n]) <-> x = n \/ In x (children_of F1 self)).
  { intros x. rewrite in_app_iff. cbn. intuition. }
  destruct (last_error (children_of F1 self)) as [lc|] eqn:Elc.
  - unfold borrow_mut in HA. destruct (mem lc (self :: G)) eqn:ELC; [easy|].
    cbn [l_next set_last set_prev set_parent set_root] in HA.
    pose proof (last_error_In _ _ Elc) as Hlc.
    pose proof (child_siblings F1 W1 self lc Hlc) as Hslc.
    assert (Hnlc : l_next L1 lc = None).
    { rewrite (r_next _ _ R1), Hslc. apply succ_none_last; easy. }
    rewrite Hnlc in HA. eexists. split; [exact HA|].
    assert (Hlcn : lc <> n) by (intros ->; now apply (Hc1 self)).
    split.
    + unfold f_append. rewrite <- HF1.
      apply Rep_set_children with (n := n); try easy; intros m.
      * cbn. unfold upd. destruct (Nat.eqb_spec m n); [easy|]. now rewrite (r_parent _ _ R1).
      * cbn. unfold upd. rewrite succ_in_snoc by (try easy; apply Hc1). rewrite Elc. cbn.
        rewrite (r_next _ _ R1). rewrite (Nat.eqb_sym lc m).
        destruct (mem m (children_of F1 self ++ [n])) eqn:Em.
        -- destruct (Nat.eqb_spec m lc) as [->|]; [easy|].
           apply mem_In, Hin in Em. destruct Em as [->|Em].
           ++ rewrite Hs1. cbn. rewrite Nat.eqb_refl. symmetry. apply succ_in_notin, Hc1.
           ++ now rewrite (child_siblings F1 W1 self m Em).
        -- destruct (Nat.eqb_spec m lc) as [->|]; [|easy].
           apply mem_not_In in Em. exfalso. apply Em, Hin. now right.
      * cbn. unfold upd. rewrite pred_in_snoc by apply Hc1. rewrite (r_prev _ _ R1).
        destruct (Nat.eqb_spec m n) as [->|Hmn].
        -- rewrite mem_app, mem_cons, Nat.eqb_refl, orb_true_r. easy.
        -- destruct (mem m (children_of F1 self ++ [n])) eqn:Em; [|easy].
           apply mem_In, Hin in Em. destruct Em as [->|Em]; [easy|].
           now rewrite (child_siblings F1 W1 self m Em).
      * cbn. rewrite (r_first _ _ R1), hd_error_snoc.
        destruct (Nat.eqb_spec m self) as [->|]; [|easy].
        destruct (hd_error (children_of F1 self)) eqn:Eh; [easy|].
        apply hd_error_none in Eh. rewrite Eh in Hlc. easy.
      * cbn. unfold upd. rewrite last_error_snoc. rewrite (r_last _ _ R1).
        destruct (Nat.eqb_spec m self) as [->|]; easy.
    + intros m. cbn. unfold upd. destruct (Nat.eqb m n); [|apply Hroot].
      unfold root_or_self, root_of. rewrite Hroot. destruct (l_root L self); reflexivity.
  - cbn [l_first set_last set_prev set_parent set_root] in HA.
    apply last_error_none in Elc.
    rewrite (r_first _ _ R1), Elc in HA. cbn [hd_error] in HA. eexists. split; [exact HA|].
    split.
    + unfold f_append. rewrite <- HF1. rewrite Elc in *.
      apply Rep_set_children with (n := n); try easy; intros m.
      * now rewrite Elc.
      * cbn. unfold upd. destruct (Nat.eqb_spec m n); [easy|]. now rewrite (r_parent _ _ R1).
      * cbn. rewrite (r_next _ _ R1). rewrite mem_cons. cbn.
        destruct (Nat.eqb_spec m n) as [->|]; cbn; [|easy].
        rewrite Hs1. cbn. now rewrite Nat.eqb_refl.
      * cbn. rewrite (r_prev _ _ R1). rewrite mem_cons. cbn.
        destruct (Nat.eqb_spec m n) as [->|]; cbn; [|easy].
        now rewrite Hs1.
      * cbn. unfold upd. rewrite (r_first _ _ R1). now destruct (Nat.eqb_spec m self).
      * cbn. unfold upd. rewrite (r_last _ _ R1). now destruct (Nat.eqb_spec m self).
    + intros m. cbn. unfold upd. destruct (Nat.eqb m n); [|apply Hroot].
      unfold root_or_self, root_of. rewrite Hroot. destruct (l_root L self); reflexivity.
Qed.

Definition prepend_conflict (G : list nid) (self n : nid) (F : forest) : bool :=
  mem self G || mem n (self :: G) ||
  existsb (fun x => mem x (n :: self :: G)) (adjoining F n) ||
  match hd_error (children_of (f_detach n F) self) with
  | Some fc => mem fc (n :: self :: G)
  | None => false
  end.

Theorem prepend_refines (G : list nid) (self n : nid) (L : links) (F : forest) : Rep L F ->
  if Nat.eqb self n then prepend G self n L = Panic PAssert
  else if prepend_conflict G self n F then prepend G self n L = Panic PBorrow
  else exists L', prepend G self n L = Ok L' /\ Rep L' (f_prepend self n F) /\
       (forall m, l_root L' m = if Nat.eqb m n then Some (root_of L self) else l_root L m).
Proof.
  intros R. unfold prepend_conflict.
  assert (HA := eq_refl (prepend G self n L)). unfold prepend in HA at 2.
  destruct (Nat.eqb_spec self n) as [|Hsn]; [easy|].
  destruct (mem self G) eqn:EG; [now rewrite (bm_fail _ _ _ EG) in HA|rewrite (bm_ok _ _ _ EG) in HA].
  destruct (mem n (self :: G)) eqn:EN; [now rewrite (bm_fail _ _ _ EN) in HA|rewrite (bm_ok _ _ _ EN) in HA].
  cbn [orb]. pose proof (detach_data_refines (n :: self :: G) n L F R) as HD.
  destruct (existsb _ _) eqn:EX; [cbn [orb]; now rewrite HD in HA|].
  destruct HD as (L1 & HL & R1 & Hroot). rewrite HL in HA. cbn [bind orb] in HA |- *.
  destruct (detached_facts n F (r_wf _ _ R)) as (W1 & Hp1 & Hs1 & Hc1 & Hm1).
  remember (f_detach n F) as F1 eqn:HF1.
  cbn [l_first set_root set_parent] in HA.
  rewrite (r_first _ _ R1) in HA.
  pose proof (children_nodup F1 W1 self) as Hnd.
  assert (Hl : NoDup (n :: children_of F1 self)).
  { apply NoDup_cons; [apply Hc1|easy]. }
  assert (Hin : forall x, In x (n :: children_of F1 self) <-> x = n \/ In x (children_of F1 self)).
  { intros x. cbn. intuition. }
  destruct (hd_error (children_of F1 self)) as [fc|] eqn:Efc.
  - unfold borrow_mut in HA. destruct (mem fc (n :: self :: G)) eqn:EFC; [easy|].
    cbn [l_prev set_first set_prev set_parent set_root bind] in HA.
    pose proof (hd_error_In _ _ Efc) as Hfc.
    pose proof (child_siblings F1 W1 self fc Hfc) as Hsfc.
    assert (Hnfc : l_prev L1 fc = None).
    { rewrite (r_prev _ _ R1), Hsfc. apply pred_none_hd; easy. }
    rewrite Hnfc in HA. cbn [bind] in HA. eexists. split; [exact HA|].
    assert (Hfcn : fc <> n) by (intros ->; now apply (Hc1 self)).
    split.
    + unfold f_prepend. rewrite <- HF1.
      apply Rep_set_children with (n := n); try easy; intros m.
      * cbn. unfold upd. destruct (Nat.eqb_spec m n); [easy|]. now rewrite (r_parent _ _ R1).
      * rewrite succ_in_cons. cbn. unfold upd.
        rewrite (r_next _ _ R1), Efc. rewrite mem_cons.
        destruct (Nat.eqb_spec m n) as [->|Hmn]; cbn; [easy|].
        destruct (mem m (children_of F1 self)) eqn:Em; [|easy].
        apply mem_In in Em. now rewrite (child_siblings F1 W1 self m Em).
      * rewrite pred_in_cons by (try easy; apply Hc1). cbn. unfold upd.
        rewrite (r_prev _ _ R1), Efc. cbn. rewrite (Nat.eqb_sym fc m).
        destruct (mem m (n :: children_of F1 self)) eqn:Em.
        -- destruct (Nat.eqb_spec m fc) as [->|]; [easy|].
           apply mem_In, Hin in Em. destruct Em as [->|Em].
           ++ rewrite Hs1. unfold pred_in. cbn. rewrite Nat.eqb_refl. symmetry.
              apply succ_in_notin. rewrite <- in_rev. apply Hc1.
           ++ now rewrite (child_siblings F1 W1 self m Em).
        -- destruct (Nat.eqb_spec m fc) as [->|]; [|easy].
           apply mem_not_In in Em. exfalso. apply Em, Hin. now right.
      * cbn. unfold upd. rewrite (r_first _ _ R1).
        destruct (Nat.eqb_spec m self) as [->|]; easy.
      * cbn. rewrite (r_last _ _ R1), last_error_cons.
        destruct (Nat.eqb_spec m self) as [->|]; [|easy].
        destruct (last_error (children_of F1 self)) eqn:Eh; [easy|].
        apply last_error_none in Eh. rewrite Eh in Hfc. easy.
    + intros m. cbn. unfold upd. destruct (Nat.eqb m n); [|apply Hroot].
      unfold root_or_self, root_of. rewrite Hroot. destruct (l_root L self); reflexivity.
  - cbn [l_first set_first set_last set_prev set_parent set_root] in HA.
    rewrite upd_same in HA. apply hd_error_none in Efc. cbn [bind] in HA.
    eexists. split; [exact HA|].
    split.
    + unfold f_prepend. rewrite <- HF1. rewrite Efc in *.
      apply Rep_set_children with (n := n); try easy; intros m.
      * now rewrite Efc.
      * cbn. unfold upd. destruct (Nat.eqb_spec m n); [easy|]. now rewrite (r_parent _ _ R1).
      * cbn. rewrite (r_next _ _ R1). rewrite mem_cons. cbn.
        destruct (Nat.eqb_spec m n) as [->|]; cbn; [|easy].
        rewrite Hs1. cbn. now rewrite Nat.eqb_refl.
      * cbn. rewrite (r_prev _ _ R1). rewrite mem_cons. cbn.
        destruct (Nat.eqb_spec m n) as [->|]; cbn; [|easy].
        now rewrite Hs1.
      * cbn. unfold upd. rewrite (r_first _ _ R1). now destruct (Nat.eqb_spec m self).
      * cbn. unfold upd. rewrite (r_last _ _ R1). now destruct (Nat.eqb_spec m self).
    + intros m. cbn. unfold upd. destruct (Nat.eqb m n); [|apply Hroot].
      unfold root_or_self, root_of. rewrite Hroot. destruct (l_root L self); reflexivity.
Qed.

Theorem detach_refines (G : list nid) (n : nid) (L : links) (F : forest) : Rep L F ->
  if mem n G || existsb (fun x => mem x (n :: G)) (adjoining F n)
  then detach G n L = Panic PBorrow
  else exists L', detach G n L = Ok L' /\ Rep L' (f_detach n F) /\
       (forall m, l_root L' m = l_root L m).
Proof.
  intros R. unfold detach.
  destruct (mem n G) eqn:E; [now rewrite (bm_fail _ _ _ E)|]. cbn [orb].
  pose proof (detach_data_refines (n :: G) n L F R) as HD.
  destruct (existsb _ _); now rewrite (bm_ok _ _ _ E).
Qed.

Lemma Rep_set_siblings self n l L' F1 :
  wf_forest F1 -> parent_of F1 n = None -> siblings_of F1 n = [n] ->
  NoDup l -> (forall x, In x l <-> x = n \/ In x (siblings_of F1 self)) ->
  (forall m, l_parent L' m = if Nat.eqb m n then parent_of F1 self else parent_of F1 m) ->
  (forall m, l_next L' m = if mem m l then succ_in m l else succ_in m (siblings_of F1 m)) ->
  (forall m, l_prev L' m = if mem m l then pred_in m l else pred_in m (siblings_of F1 m)) ->
  (forall m, l_first L' m = if onid_eqb (parent_of F1 self) (Some m) then hd_error l
                            else hd_error (children_of F1 m)) ->
  (forall m, l_last L' m = if onid_eqb (parent_of F1 self) (Some m) then last_error l
                           else last_error (children_of F1 m)) ->
  Rep L' (f_set_siblings self l F1).
Proof.
  intros W Hp Hs Hl Hin Hpar Hnext Hprev Hfirst Hlast. split.
  - now apply wf_set_siblings with (n := n).
  - intros m. rewrite Hpar. cbn. destruct (Nat.eqb_spec m n) as [->|Hm].
    + replace (mem n l) with true; [easy|]. symmetry. apply mem_In, Hin. now left.
    + destruct (mem m l) eqn:E; [|easy]. apply mem_In, Hin in E. destruct E as [|E]; [easy|].
      now apply W.
  - intros m. rewrite Hnext. cbn. now destruct (mem m l).
  - intros m. rewrite Hprev. cbn. now destruct (mem m l).
  - intros m. rewrite Hfirst. cbn. destruct (parent_of F1 self); [|easy]. cbn.
    rewrite Nat.eqb_sym. now destruct (Nat.eqb m n0).
  - intros m. rewrite Hlast. cbn. destruct (parent_of F1 self); [|easy]. cbn.
    rewrite Nat.eqb_sym. now destruct (Nat.eqb m n0).
Qed.

Definition insert_after_conflict (G : list nid) (self n : nid) (F : forest) : bool :=
  mem self G || mem n (self :: G) ||
  existsb (fun x => mem x (n :: self :: G)) (adjoining F n) ||
  match succ_in self (siblings_of (f_detach n F) self) with
  | Some x => mem x (n :: self :: G)
  | None => match parent_of (f_detach n F) self with
            | Some p => mem p (n :: self :: G)
            | None => false
            end
  end.

Theorem insert_after_refines (G : list nid) (self n : nid) (L : links) (F : forest) : Rep L F ->
  if Nat.eqb self n then insert_after G self n L = Panic PAssert
  else if insert_after_conflict G self n F then insert_after G self n L = Panic PBorrow
  else exists L', insert_after G self n L = Ok L' /\ Rep L' (f_insert_after self n F) /\
       (forall m, l_root L' m = if Nat.eqb m n then l_root L self else l_root L m).
Proof.
  intros R. unfold insert_after_conflict.
  assert (HA := eq_refl (insert_after G self n L)). unfold insert_after in HA at 2.
  destruct (Nat.eqb_spec self n) as [|Hsn]; [easy|].
  destruct (mem self G) eqn:EG; [now rewrite (bm_fail _ _ _ EG) in HA|rewrite (bm_ok _ _ _ EG) in HA].
  destruct (mem n (self :: G)) eqn:EN; [now rewrite (bm_fail _ _ _ EN) in HA|rewrite (bm_ok _ _ _ EN) in HA].
  cbn [orb]. pose proof (detach_data_refines (n :: self :: G) n L F R) as HD.
  destruct (existsb _ _) eqn:EX; [cbn [orb]; now rewrite HD in HA|].
  destruct HD as (L1 & HL & R1 & Hroot). rewrite HL in HA. cbn [bind orb] in HA |- *.
  destruct (detached_facts n F (r_wf _ _ R)) as (W1 & Hp1 & Hs1 & Hc1 & Hm1).
  remember (f_detach n F) as F1 eqn:HF1.
  pose proof (wf_nodup F1 W1 self) as Hnd.
  pose proof (wf_self F1 W1 self) as Hself.
  pose proof (Hm1 self Hsn) as Hnself.
  assert (Hl : NoDup (ins_after self n (siblings_of F1 self))) by now apply NoDup_ins_after.
  assert (Hin : forall x, In x (ins_after self n (siblings_of F1 self)) <->
                          x = n \/ In x (siblings_of F1 self)) by (intros; now apply in_ins_after).
  assert (Hpar1 : forall m, l_parent (set_prev n (Some self)
            (set_parent n (l_parent L1 self) (set_root n (l_root L1 self) L1))) m =
            if Nat.eqb m n then parent_of F1 self else parent_of F1 m).
  { intros m. cbn. unfold upd. now rewrite !(r_parent _ _ R1). }
  assert (Hfirst1 : forall m, l_first L1 m =
            if onid_eqb (parent_of F1 self) (Some m)
            then hd_error (ins_after self n (siblings_of F1 self))
            else hd_error (children_of F1 m)).
  { intros m. rewrite (r_first _ _ R1), hd_error_ins_after.
    destruct (onid_eqb (parent_of F1 self) (Some m)) eqn:E; [|easy].
    apply onid_eqb_eq in E. now rewrite (wf_parent F1 W1 self m E). }
  cbn [l_next l_root l_parent set_root set_parent set_prev] in HA.
  rewrite (r_next _ _ R1) in HA.
  (* values of the next and prev fields of the edited list *)
  assert (Hnext_spec : forall m,
     (if mem m (ins_after self n (siblings_of F1 self))
      then succ_in m (ins_after self n (siblings_of F1 self))
      else succ_in m (siblings_of F1 m)) =
     if Nat.eqb m self then Some n
     else if Nat.eqb m n then succ_in self (siblings_of F1 self)
     else succ_in m (siblings_of F1 m)).
  { intros m. rewrite succ_in_ins_after by easy.
    destruct (mem m (ins_after self n (siblings_of F1 self))) eqn:Em.
    - apply mem_In, Hin in Em. destruct (Nat.eqb_spec m self); [easy|].
      destruct (Nat.eqb_spec m n); [easy|]. destruct Em as [|Em]; [easy|].
      destruct (wf_share F1 W1 self m Em) as [-> _]. easy.
    - apply mem_not_In in Em. rewrite Hin in Em.
      destruct (Nat.eqb_spec m self) as [->|]; [tauto|].
      destruct (Nat.eqb_spec m n) as [->|]; [tauto|]. easy. }
  assert (Hprev_spec : forall m,
     (if mem m (ins_after self n (siblings_of F1 self))
      then pred_in m (ins_after self n (siblings_of F1 self))
      else pred_in m (siblings_of F1 m)) =
     if Nat.eqb m n then Some self
     else if onid_eqb (succ_in self (siblings_of F1 self)) (Some m) then Some n
     else pred_in m (siblings_of F1 m)).
  { intros m. rewrite pred_in_ins_after by easy.
    destruct (mem m (ins_after self n (siblings_of F1 self))) eqn:Em.
    - apply mem_In, Hin in Em. destruct (Nat.eqb_spec m n); [easy|].
      destruct (onid_eqb _ _); [easy|]. destruct Em as [|Em]; [easy|].
      destruct (wf_share F1 W1 self m Em) as [-> _]. easy.
    - apply mem_not_In in Em. rewrite Hin in Em.
      destruct (Nat.eqb_spec m n) as [->|]; [tauto|].
      destruct (onid_eqb _ _) eqn:E; [|easy]. apply onid_eqb_eq, succ_in_In in E. tauto. }
  destruct (succ_in self (siblings_of F1 self)) as [x|] eqn:Ex.
  - unfold borrow_mut in HA. destruct (mem x (n :: self :: G)) eqn:EXX; [easy|].
    destruct (succ_in_In _ _ _ Ex) as [_ Hx].
    assert (Hxn : x <> n) by (intros ->; contradiction).
    assert (Hxs : x <> self) by exact (succ_in_neq _ _ _ Hnd Ex).
    cbn [l_prev set_next set_prev set_parent set_root] in HA.
    rewrite upd_other in HA by easy.
    assert (Hpx : l_prev L1 x = Some self).
    { rewrite (r_prev _ _ R1). apply succ_pred_F; [easy|easy]. }
    rewrite Hpx, Nat.eqb_refl in HA. cbn [bind] in HA.
    eexists. split; [exact HA|]. split.
    + unfold f_insert_after. rewrite <- HF1.
      apply Rep_set_siblings with (n := n); [exact W1|exact Hp1|exact Hs1|exact Hl|exact Hin|intros m..].
      * apply Hpar1.
      * rewrite Hnext_spec. cbn. unfold upd. rewrite (r_next _ _ R1). eqb_cases; congruence.
      * rewrite Hprev_spec. cbn. unfold upd. rewrite (r_prev _ _ R1). eqb_cases; congruence.
      * apply Hfirst1.
      * rewrite last_error_ins_after, Ex by easy. cbn. rewrite (r_last _ _ R1).
        destruct (onid_eqb (parent_of F1 self) (Some m)) eqn:E; [|easy].
        apply onid_eqb_eq in E. now rewrite (wf_parent F1 W1 self m E).
    + intros m. cbn. unfold upd. rewrite !Hroot. easy.
  - rewrite ?(upd_other _ n self) in HA by easy.

    pose proof (last_error_ins_after self n (siblings_of F1 self) Hnd Hself Hnself) as Hlast.
    rewrite Ex in Hlast.
    cbn [l_parent set_next set_prev set_parent set_root] in HA.
    rewrite ?(upd_other _ n self) in HA by easy. rewrite ?(r_parent _ _ R1) in HA.
    destruct (parent_of F1 self) as [p|] eqn:Ep.
    + unfold borrow_mut in HA. destruct (mem p (n :: self :: G)) eqn:EXX; [easy|].
      cbn [bind] in HA. eexists. split; [exact HA|]. split.
      * unfold f_insert_after. rewrite <- HF1.
        apply Rep_set_siblings with (n := n); [exact W1|exact Hp1|exact Hs1|exact Hl|exact Hin|rewrite ?Ep; intros m..].
        -- cbn. unfold upd. now rewrite (r_parent _ _ R1).
        -- rewrite Hnext_spec. cbn. unfold upd. rewrite (r_next _ _ R1).
           eqb_cases; try congruence. subst. now rewrite Hs1; cbn; rewrite Nat.eqb_refl.
        -- rewrite Hprev_spec. cbn. unfold upd. rewrite (r_prev _ _ R1). easy.
        -- apply Hfirst1.
        -- rewrite Hlast. cbn. unfold upd. rewrite (r_last _ _ R1). now rewrite Nat.eqb_sym.
      * intros m. cbn. unfold upd. rewrite !Hroot. easy.
    + cbn [bind] in HA. eexists. split; [exact HA|]. split.
      * unfold f_insert_after. rewrite <- HF1.
        apply Rep_set_siblings with (n := n); [exact W1|exact Hp1|exact Hs1|exact Hl|exact Hin|rewrite ?Ep; intros m..].
        -- cbn. unfold upd. now rewrite (r_parent _ _ R1).
        -- rewrite Hnext_spec. cbn. unfold upd. rewrite (r_next _ _ R1).
           eqb_cases; try congruence. subst. now rewrite Hs1; cbn; rewrite Nat.eqb_refl.
        -- rewrite Hprev_spec. cbn. unfold upd. rewrite (r_prev _ _ R1). easy.
        -- apply Hfirst1.
        -- cbn. now rewrite (r_last _ _ R1).
      * intros m. cbn. unfold upd. rewrite !Hroot. easy.
Qed.

Definition insert_before_conflict (G : list nid) (self n : nid) (F : forest) : bool :=
  mem self G || mem n (self :: G) ||
  existsb (fun x => mem x (n :: self :: G)) (adjoining F n) ||
  match pred_in self (siblings_of (f_detach n F) self) with
  | Some x => mem x (self :: G)
  | None => match parent_of (f_detach n F) self with
            | Some p => mem p (self :: G)
            | None => false
            end
  end.

Theorem insert_before_refines (G : list nid) (self n : nid) (L : links) (F : forest) : Rep L F ->
  if Nat.eqb self n then insert_before G self n L = Panic PAssert
  else if insert_before_conflict G self n F then insert_before G self n L = Panic PBorrow
  else exists L', insert_before G self n L = Ok L' /\ Rep L' (f_insert_before self n F) /\
       (forall m, l_root L' m = if Nat.eqb m n then l_root L self else l_root L m).
Proof.
  intros R. unfold insert_before_conflict.
  assert (HA := eq_refl (insert_before G self n L)). unfold insert_before in HA at 2.
  destruct (Nat.eqb_spec self n) as [|Hsn]; [easy|].
  destruct (mem self G) eqn:EG; [now rewrite (bm_fail _ _ _ EG) in HA|rewrite (bm_ok _ _ _ EG) in HA].
  destruct (mem n (self :: G)) eqn:EN; [now rewrite (bm_fail _ _ _ EN) in HA|rewrite (bm_ok _ _ _ EN) in HA].
  cbn [orb]. pose proof (detach_data_refines (n :: self :: G) n L F R) as HD.
  destruct (existsb _ _) eqn:EX; [cbn [orb]; now rewrite HD in HA|].
  destruct HD as (L1 & HL & R1 & Hroot). rewrite HL in HA. cbn [bind orb] in HA |- *.
  destruct (detached_facts n F (r_wf _ _ R)) as (W1 & Hp1 & Hs1 & Hc1 & Hm1).
  remember (f_detach n F) as F1 eqn:HF1.
  pose proof (wf_nodup F1 W1 self) as Hnd.
  pose proof (wf_self F1 W1 self) as Hself.
  pose proof (Hm1 self Hsn) as Hnself.
  assert (Hl : NoDup (ins_before self n (siblings_of F1 self))) by now apply NoDup_ins_before.
  assert (Hin : forall x, In x (ins_before self n (siblings_of F1 self)) <->
                          x = n \/ In x (siblings_of F1 self)) by (intros; now apply in_ins_before).
  assert (Hlast1 : forall m, l_last L1 m =
            if onid_eqb (parent_of F1 self) (Some m)
            then last_error (ins_before self n (siblings_of F1 self))
            else last_error (children_of F1 m)).
  { intros m. rewrite (r_last _ _ R1), last_error_ins_before by easy.
    destruct (onid_eqb (parent_of F1 self) (Some m)) eqn:E; [|easy].
    apply onid_eqb_eq in E. now rewrite (wf_parent F1 W1 self m E). }
  cbn [l_prev l_root l_parent set_root set_parent set_next] in HA.
  rewrite (r_prev _ _ R1) in HA.
  assert (Hprev_spec : forall m,
     (if mem m (ins_before self n (siblings_of F1 self))
      then pred_in m (ins_before self n (siblings_of F1 self))
      else pred_in m (siblings_of F1 m)) =
     if Nat.eqb m self then Some n
     else if Nat.eqb m n then pred_in self (siblings_of F1 self)
     else pred_in m (siblings_of F1 m)).
  { intros m. rewrite pred_in_ins_before by easy.
    destruct (mem m (ins_before self n (siblings_of F1 self))) eqn:Em.
    - apply mem_In, Hin in Em. destruct (Nat.eqb_spec m self); [easy|].
      destruct (Nat.eqb_spec m n); [easy|]. destruct Em as [|Em]; [easy|].
      destruct (wf_share F1 W1 self m Em) as [-> _]. easy.
    - apply mem_not_In in Em. rewrite Hin in Em.
      destruct (Nat.eqb_spec m self) as [->|]; [tauto|].
      destruct (Nat.eqb_spec m n) as [->|]; [tauto|]. easy. }
  assert (Hnext_spec : forall m,
     (if mem m (ins_before self n (siblings_of F1 self))
      then succ_in m (ins_before self n (siblings_of F1 self))
      else succ_in m (siblings_of F1 m)) =
     if Nat.eqb m n then Some self
     else if onid_eqb (pred_in self (siblings_of F1 self)) (Some m) then Some n
     else succ_in m (siblings_of F1 m)).
  { intros m. rewrite succ_in_ins_before by easy.
    destruct (mem m (ins_before self n (siblings_of F1 self))) eqn:Em.
    - apply mem_In, Hin in Em. destruct (Nat.eqb_spec m n); [easy|].
      destruct (onid_eqb _ _); [easy|]. destruct Em as [|Em]; [easy|].
      destruct (wf_share F1 W1 self m Em) as [-> _]. easy.
    - apply mem_not_In in Em. rewrite Hin in Em.
      destruct (Nat.eqb_spec m n) as [->|]; [tauto|].
      destruct (onid_eqb _ _) eqn:E; [|easy]. apply onid_eqb_eq, pred_in_In in E. tauto. }
  destruct (pred_in self (siblings_of F1 self)) as [x|] eqn:Ex.
  - unfold borrow_mut in HA. destruct (mem x (self :: G)) eqn:EXX; [easy|].
    destruct (pred_in_In _ _ _ Ex) as [_ Hx].
    assert (Hxn : x <> n) by (intros ->; contradiction).
    assert (Hxs : x <> self) by exact (pred_in_neq _ _ _ Hnd Ex).
    cbn [l_next set_next set_prev set_parent set_root] in HA.
    rewrite upd_other in HA by easy.
    assert (Hpx : l_next L1 x = Some self).
    { rewrite (r_next _ _ R1). apply succ_pred_F; [easy|easy]. }
    rewrite Hpx, Nat.eqb_refl in HA. cbn [bind] in HA.
    eexists. split; [exact HA|]. split.
    + unfold f_insert_before. rewrite <- HF1.
      apply Rep_set_siblings with (n := n); [exact W1|exact Hp1|exact Hs1|exact Hl|exact Hin|intros m..].
      * cbn. unfold upd. now rewrite !(r_parent _ _ R1).
      * rewrite Hnext_spec. cbn. unfold upd. rewrite (r_next _ _ R1). eqb_cases; congruence.
      * rewrite Hprev_spec. cbn. unfold upd. rewrite (r_prev _ _ R1). eqb_cases; congruence.
      * rewrite hd_error_ins_before, Ex by easy. cbn. rewrite (r_first _ _ R1).
        destruct (onid_eqb (parent_of F1 self) (Some m)) eqn:E; [|easy].
        apply onid_eqb_eq in E. now rewrite (wf_parent F1 W1 self m E).
      * apply Hlast1.
    + intros m. cbn. unfold upd. rewrite !Hroot. easy.
  - pose proof (hd_error_ins_before self n (siblings_of F1 self) Hnd Hself Hnself) as Hhd.
    rewrite Ex in Hhd.
    cbn [l_parent set_next set_prev set_parent set_root] in HA.
    rewrite ?(upd_other _ n self) in HA by easy. rewrite ?(r_parent _ _ R1) in HA.
    destruct (parent_of F1 self) as [p|] eqn:Ep.
    + unfold borrow_mut in HA. destruct (mem p (self :: G)) eqn:EXX; [easy|].
      eexists. split; [exact HA|]. split.
      * unfold f_insert_before. rewrite <- HF1.
        apply Rep_set_siblings with (n := n); [exact W1|exact Hp1|exact Hs1|exact Hl|exact Hin|rewrite ?Ep; intros m..].
        -- cbn. unfold upd. now rewrite (r_parent _ _ R1).
        -- rewrite Hnext_spec. cbn. unfold upd. rewrite (r_next _ _ R1). easy.
        -- rewrite Hprev_spec. cbn. unfold upd. rewrite (r_prev _ _ R1).
           eqb_cases; try congruence. subst. rewrite Hs1. unfold pred_in. cbn. now rewrite Nat.eqb_refl.
        -- rewrite Hhd. cbn. unfold upd. rewrite (r_first _ _ R1). now rewrite Nat.eqb_sym.
        -- apply Hlast1.
      * intros m. cbn. unfold upd. rewrite !Hroot. easy.
    + eexists. split; [exact HA|]. split.
      * unfold f_insert_before. rewrite <- HF1.
        apply Rep_set_siblings with (n := n); [exact W1|exact Hp1|exact Hs1|exact Hl|exact Hin|rewrite ?Ep; intros m..].
        -- cbn. unfold upd. now rewrite (r_parent _ _ R1).
        -- rewrite Hnext_spec. cbn. unfold upd. rewrite (r_next _ _ R1). easy.
        -- rewrite Hprev_spec. cbn. unfold upd. rewrite (r_prev _ _ R1).
           eqb_cases; try congruence. subst. rewrite Hs1. unfold pred_in. cbn. now rewrite Nat.eqb_refl.
        -- cbn. now rewrite (r_first _ _ R1).
        -- cbn. now rewrite (r_last _ _ R1).
      * intros m. cbn. unfold upd. rewrite !Hroot. easy.
Qed.
