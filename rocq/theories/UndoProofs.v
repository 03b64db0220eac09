(* Opposite calls undo each other. *)
From Coq Require Import List Bool PeanoNat NArith Lia Sorting.Permutation.
From Verif Require Import Base Ids Links Tree ForestSpec TreeSpec ListFacts ForestFacts TreeProofs TreeApi PruneFacts Data Attrs Slab NodeApi Doc
  AttrFacts LinkProofs AttrSpec DocSpec NodeSpec History InvProofs HistoryProofs CopyProofs ApiProofs DocApi NodeProofs LoopSpec LoopExact UndoSpec.
Import ListNotations.

(* ---- forests *)
Lemma same_forest F F' : wf_forest F -> wf_forest F' ->
  (forall m, parent_of F' m = parent_of F m) -> (forall q, children_of F' q = children_of F q) ->
  (forall m, parent_of F m = None -> siblings_of F' m = siblings_of F m) -> forest_eq F' F.
Proof.
  intros W W' HP HC HS. split; [exact HP|]. split; [|exact HC]. intros m.
  destruct (parent_of F m) as [p|] eqn:E; [|apply HS, E].
  rewrite (wf_parent F' W' m p) by now rewrite HP. rewrite (wf_parent F W m p E). apply HC.
Qed.

Lemma navigation_back D D' F F' : shows (lk D) F -> shows (lk D') F' -> forest_eq F' F ->
  forall n, parent (lk D') n = parent (lk D) n /\ first_child (lk D') n = first_child (lk D) n /\
    last_child (lk D') n = last_child (lk D) n /\ next_sibling (lk D') n = next_sibling (lk D) n /\
    previous_sibling (lk D') n = previous_sibling (lk D) n.
Proof.
  intros S S' (HP & HS & HC) n.
  rewrite (sh_parent _ _ S), (sh_parent _ _ S'), (sh_first _ _ S), (sh_first _ _ S'), (sh_last _ _ S), (sh_last _ _ S'),
    (sh_next _ _ S), (sh_next _ _ S'), (sh_prev _ _ S), (sh_prev _ _ S'), HP, HC, HS. tauto.
Qed.

Lemma links_only_back D D' F F' : dt D' = dt D -> droot D' = droot D -> shows (lk D) F -> shows (lk D') F' -> forest_eq F' F ->
  as_before D D'.
Proof.
  intros Ed Er S S' E. pose proof (navigation_back D D' F F' S S' E) as N.
  split; try (intros n _; try apply N; unfold node_type, tag_name, id_of, text_of, attributes, linked_nodes, is_detached, storage_key; now rewrite Ed).
  exact Er.
Qed.

Lemma links_step o D D' : match o with OAppend _ _ | OPrepend _ _ | OInsertAfter _ _ | OInsertBefore _ _ | ODetach _ => True | _ => False end ->
  step o D = Ok D' -> exists L, D' = with_lk L D.
Proof.
  intros Ho H. destruct o; try contradiction; cbn [step] in H; unfold on_links in H; ok_bind H L' E; injection H as <-; now exists L'.
Qed.

Lemma rm_twice n l : rm n (rm n l) = rm n l.
Proof. apply rm_notin. unfold rm. intros H. apply filter_In in H. destruct H as (_ & H). now rewrite Nat.eqb_refl in H. Qed.
Lemma rm_head n l : rm n (n :: l) = rm n l.
Proof. unfold rm. cbn [filter]. now rewrite Nat.eqb_refl. Qed.
Lemma rm_mid n l1 l2 : ~ In n l1 -> ~ In n l2 -> rm n (l1 ++ n :: l2) = l1 ++ l2.
Proof.
  intros H1 H2. rewrite rm_app, rm_head. now rewrite !rm_notin.
Qed.

Lemma alone_forest D F n : shows (lk D) F -> stands_alone D n -> parent_of F n = None /\ siblings_of F n = [n].
Proof.
  intros S (H1 & H2 & H3). rewrite (sh_parent _ _ S) in H1. split; [exact H1|].
  rewrite (sh_next _ _ S) in H2. rewrite (sh_prev _ _ S) in H3.
  pose proof (wf_self F (sh_wf _ _ S) n) as Hin. pose proof (wf_nodup F (sh_wf _ _ S) n) as Hnd.
  apply in_split in Hin. destruct Hin as (l1 & l2 & E). rewrite E in *.
  assert (G : forall l1 l2, ~ In n l1 -> succ_in n (l1 ++ n :: l2) = hd_error l2).
  { clear. induction l1 as [|x l1 IH]; intros l2 H; cbn [app succ_in]; [now rewrite Nat.eqb_refl|].
    destruct (Nat.eqb_spec x n) as [->|Hx]; [exfalso; apply H; now left|]. apply IH. intros Hn. apply H. now right. }
  apply NoDup_remove_2 in Hnd. rewrite in_app_iff in Hnd.
  rewrite G in H2 by tauto. unfold pred_in in H3. rewrite rev_app_distr in H3. cbn [rev] in H3. rewrite <- app_assoc in H3. cbn [app] in H3.
  rewrite G in H3. 2: { intros Hn. apply in_rev in Hn. tauto. }
  destruct l2; [|discriminate]. assert (E1 : l1 = []).
  { rewrite <- (rev_involutive l1). destruct (rev l1); [reflexivity|discriminate]. }
  now rewrite E1.
Qed.

(* two forests that differ in the place of [n] only *)
Record alike (n : nid) (F F' : forest) : Prop := {
  al_parent : forall m, m <> n -> parent_of F' m = parent_of F m;
  al_children : forall q, rm n (children_of F' q) = rm n (children_of F q);
  al_siblings : forall m, m <> n -> parent_of F m = None -> rm n (siblings_of F' m) = rm n (siblings_of F m)
}.
Lemma alike_trans n F F' F'' : alike n F F' -> alike n F' F'' -> alike n F F''.
Proof.
  intros [a b c] [a' b' c']. split; intros.
  - rewrite a', a; auto.
  - now rewrite b', b.
  - rewrite c', c; auto. now rewrite a.
Qed.
Lemma alike_sym n F F' : alike n F F' -> alike n F' F.
Proof.
  intros [a b c]. split; intros.
  - now rewrite a.
  - now rewrite b.
  - rewrite c; auto. now rewrite <- a.
Qed.

Lemma detach_alike n F F' : detached n F F' -> alike n F F'.
Proof.
  intros (_ & _ & M). split.
  - apply M.
  - intros q. rewrite (mo_children _ _ _ _ _ M) by easy. apply rm_twice.
  - intros m H1 H2. rewrite (mo_chain _ _ _ _ _ M) by easy. apply rm_twice.
Qed.
Lemma append_alike p n F F' : appended p n F F' -> alike n F F'.
Proof.
  intros (_ & C & M). split.
  - apply M.
  - intros q. destruct (Nat.eq_dec q p) as [->|Hq].
    + rewrite C, rm_app, rm_twice, rm_head. apply app_nil_r.
    + rewrite (mo_children _ _ _ _ _ M) by easy. apply rm_twice.
  - intros m H1 H2. rewrite (mo_chain _ _ _ _ _ M) by easy. apply rm_twice.
Qed.
Lemma prepend_alike p n F F' : prepended p n F F' -> alike n F F'.
Proof.
  intros (_ & C & M). split.
  - apply M.
  - intros q. destruct (Nat.eq_dec q p) as [->|Hq].
    + rewrite C, rm_head. apply rm_twice.
    + rewrite (mo_children _ _ _ _ _ M) by easy. apply rm_twice.
  - intros m H1 H2. rewrite (mo_chain _ _ _ _ _ M) by easy. apply rm_twice.
Qed.
Lemma insert_alike a n F F' : wf_forest F -> wf_forest F' -> a <> n -> rm n (siblings_of F' a) = rm n (siblings_of F a) ->
  moved_only n (fun q => parent_of F a = Some q) (fun m => In m (siblings_of F a)) F F' -> alike n F F'.
Proof.
  intros W W' Ha Hs M. split.
  - apply M.
  - intros q. assert (Hd : parent_of F a = Some q \/ parent_of F a <> Some q).
    { destruct (parent_of F a) as [x|]; [|now right]. destruct (Nat.eq_dec x q) as [->|]; [now left|right; congruence]. }
    destruct Hd as [Hd|Hd].
    + rewrite <- (wf_parent F W a q Hd), <- (wf_parent F' W' a q); [exact Hs|]. now rewrite (mo_parent _ _ _ _ _ M).
    + rewrite (mo_children _ _ _ _ _ M) by easy. apply rm_twice.
  - intros m H1 H2. destruct (in_dec Nat.eq_dec m (siblings_of F a)) as [Hd|Hd].
    + rewrite (proj1 (wf_share F W a m Hd)), <- Hs.
      assert (Hin : In m (siblings_of F' a)).
      { assert (In m (rm n (siblings_of F' a))).
        { rewrite Hs. unfold rm. apply filter_In. split; [exact Hd|]. now destruct (Nat.eqb_spec m n). }
        unfold rm in H. apply filter_In in H. apply H. }
      now rewrite (proj1 (wf_share F' W' a m Hin)).
    + rewrite (mo_chain _ _ _ _ _ M) by easy. apply rm_twice.
Qed.
Lemma rm_around n l1 l2 l : rm n l = l1 ++ l2 -> rm n (l1 ++ n :: l2) = rm n l.
Proof.
  intros E. rewrite rm_app, rm_head, <- rm_app, <- E. apply rm_twice.
Qed.
Lemma after_alike a n F F' : wf_forest F -> wf_forest F' -> a <> n -> inserted_after a n F F' -> alike n F F'.
Proof.
  intros W W' Ha (_ & (l1 & l2 & E1 & E2) & M). apply (insert_alike a n F F' W W' Ha); [|exact M]. rewrite E2.
  change (l1 ++ a :: n :: l2) with (l1 ++ [a] ++ n :: l2). rewrite app_assoc. apply rm_around. now rewrite <- app_assoc.
Qed.
Lemma before_alike a n F F' : wf_forest F -> wf_forest F' -> a <> n -> inserted_before a n F F' -> alike n F F'.
Proof.
  intros W W' Ha (_ & (l1 & l2 & E1 & E2) & M). apply (insert_alike a n F F' W W' Ha); [|exact M]. rewrite E2.
  now apply rm_around.
Qed.

(* the place of [n] *)
Lemma alike_same n F F' : wf_forest F -> wf_forest F' -> alike n F F' -> parent_of F' n = parent_of F n ->
  siblings_of F' n = siblings_of F n -> forest_eq F' F.
Proof.
  intros W W' A Hp Hs. assert (HP : forall m, parent_of F' m = parent_of F m).
  { intros m. destruct (Nat.eq_dec m n) as [->|Hm]; [exact Hp|now apply A]. }
  assert (NC : forall G q, wf_forest G -> parent_of G n <> Some q -> rm n (children_of G q) = children_of G q).
  { intros G q WG H. apply rm_notin. intros Hin. now apply H, (wf_child G WG). }
  apply same_forest; [exact W|exact W'|exact HP| |].
  - intros q. assert (Hd : parent_of F n = Some q \/ parent_of F n <> Some q).
    { destruct (parent_of F n) as [x|]; [|now right]. destruct (Nat.eq_dec x q) as [->|]; [now left|right; congruence]. }
    destruct Hd as [Hd|Hd].
    + rewrite <- (wf_parent F W n q Hd), <- (wf_parent F' W' n q); [exact Hs|congruence].
    + rewrite <- (NC F q W Hd), <- (NC F' q W') by congruence. apply A.
  - intros m Hm. destruct (in_dec Nat.eq_dec m (siblings_of F n)) as [Hd|Hd].
    + assert (Hd' : In m (siblings_of F' n)) by now rewrite Hs.
      now rewrite (proj1 (wf_share F W n m Hd)), (proj1 (wf_share F' W' n m Hd')).
    + assert (Hmn : m <> n) by (intros ->; apply Hd; apply (wf_self F W)).
      assert (NS : forall G, wf_forest G -> ~ In m (siblings_of G n) -> rm n (siblings_of G m) = siblings_of G m).
      { intros G WG H. apply rm_notin. intros Hin. apply H. destruct (wf_share G WG m n Hin) as (-> & _). apply (wf_self G WG). }
      rewrite <- (NS F W Hd), <- (NS F' W'); [|now rewrite Hs]. now apply A.
Qed.

(* ---- insertions taken back *)
Lemma alone_no_touch D F n x : shows (lk D) F -> parent_of F n = None -> siblings_of F n = [n] -> ~ touches (lk D) n x.
Proof.
  intros S H1 H2. unfold touches. rewrite (sh_next _ _ S), (sh_prev _ _ S), (sh_parent _ _ S), H1, H2.
  unfold pred_in. cbn [rev app succ_in hd_error]. rewrite Nat.eqb_refl. intros [H|[H|(H & _)]]; discriminate.
Qed.

Lemma taken_back o D D' n : reachable D -> legal o D -> exists_node D n -> stands_alone D n ->
  (exists p, o = OAppend p n \/ o = OPrepend p n \/ (o = OInsertAfter p n \/ o = OInsertBefore p n) /\ parent (lk D) p <> Some n) ->
  step o D = Ok D' -> exists D'', step (ODetach n) D' = Ok D'' /\ as_before D D''.
Proof.
  intros H Hl Hn Ha (p & Ho) E. destruct (reachable_shows D H) as (F & S).
  destruct (alone_forest D F n S Ha) as (Hp & Hs).
  assert (H' : reachable D') by exact (reach_step D o D' H Hl E).
  assert (X : dt D' = dt D /\ droot D' = droot D /\ exists F', shows (lk D') F' /\ alike n F F' /\ parent_of F' n <> Some n).
  { assert (EL : exists L, D' = with_lk L D).
    { apply (links_step o); [|exact E]. now destruct Ho as [-> | [-> | ([-> | ->] & _)]]. }
    destruct EL as (L & EL). split; [now rewrite EL|]. split; [now rewrite EL|].
    destruct Ho as [-> | [-> | ([-> | ->] & Hq)]].
    - destruct (Nat.eq_dec p n) as [->|Hpn].
      + destruct (reach_append D H n n) as (Hpa & _). rewrite Hpa in E by reflexivity. discriminate.
      + destruct (append_call D p n D' E) as (_ & _ & G). destruct (G F S) as (F' & S' & A). exists F'. split; [exact S'|].
        split; [now apply (append_alike p)|]. destruct A as (-> & _). congruence.
    - destruct (Nat.eq_dec p n) as [->|Hpn].
      + destruct (reach_prepend D H n n) as (Hpa & _). rewrite Hpa in E by reflexivity. discriminate.
      + destruct (prepend_call D p n D' E) as (_ & _ & G). destruct (G F S) as (F' & S' & A). exists F'. split; [exact S'|].
        split; [now apply (prepend_alike p)|]. destruct A as (-> & _). congruence.
    - destruct (Nat.eq_dec p n) as [->|Hpn].
      + destruct (reach_insert_after D H n n) as (Hpa & _). rewrite Hpa in E by reflexivity. discriminate.
      + destruct (insert_after_call D p n D' E) as (_ & _ & G). destruct (G F S) as (F' & S' & A). exists F'. split; [exact S'|].
        split; [apply (after_alike p n F F' (sh_wf _ _ S) (sh_wf _ _ S') Hpn A)|]. destruct A as (-> & _).
        now rewrite <- (sh_parent _ _ S).
    - destruct (Nat.eq_dec p n) as [->|Hpn].
      + destruct (reach_insert_before D H n n) as (Hpa & _). rewrite Hpa in E by reflexivity. discriminate.
      + destruct (insert_before_call D p n D' E) as (_ & _ & G). destruct (G F S) as (F' & S' & A). exists F'. split; [exact S'|].
        split; [apply (before_alike p n F F' (sh_wf _ _ S) (sh_wf _ _ S') Hpn A)|]. destruct A as (-> & _).
        now rewrite <- (sh_parent _ _ S). }
  destruct X as (Ed & Er & F' & S' & A & Hpn).
  destruct (reach_detach D' H' n) as (_ & Hd). destruct Hd as (D'' & E2).
  { unfold touches. rewrite (sh_parent _ _ S'), (sh_next _ _ S'), (sh_prev _ _ S').
    pose proof (sh_wf _ _ S') as W'. intros [T|[T|(T & _)]]; [| |easy].
    - exact (succ_in_neq _ _ _ (wf_nodup F' W' n) T eq_refl).
    - exact (pred_in_neq _ _ _ (wf_nodup F' W' n) T eq_refl). }
  exists D''. split; [exact E2|]. destruct (detach_call D' n D'' E2) as (Ed2 & _ & G). destruct (G F' S') as (F'' & S'' & Dt).
  destruct (links_step (ODetach n) D' D'' Logic.I E2) as (L2 & EL2).
  apply (links_only_back D D'' F F''); [congruence|now rewrite EL2|exact S|exact S''|].
  apply (alike_same n F F'' (sh_wf _ _ S) (sh_wf _ _ S'')).
  - apply (alike_trans n F F' F'' A). now apply detach_alike.
  - destruct Dt as (-> & _). now rewrite Hp.
  - destruct Dt as (_ & -> & _). now rewrite Hs.
Qed.

(* ---- a node put back *)
Lemma mid_unique (a : nid) l1 l2 k1 k2 : NoDup (l1 ++ a :: l2) -> l1 ++ a :: l2 = k1 ++ a :: k2 -> l1 = k1 /\ l2 = k2.
Proof.
  revert k1. induction l1 as [|x l1 IH]; intros [|y k1] Hd E; cbn [app] in *.
  - injection E as ->. now split.
  - injection E as -> ->. exfalso. inversion Hd as [|? ? H _]; subst. apply H. apply in_app_iff. right. now left.
  - injection E as -> <-. exfalso. inversion Hd as [|? ? H _]; subst. apply H. apply in_app_iff. right. now left.
  - injection E as -> E. inversion Hd as [|? ? _ H]; subst. destruct (IH k1 H E) as (-> & ->). now split.
Qed.
Lemma rm_nodup n l : NoDup l -> NoDup (rm n l).
Proof. apply NoDup_filter. Qed.

(* the lists of siblings around the place that [n] left *)
Lemma left_siblings F F' n b : wf_forest F -> wf_forest F' -> detached n F F' -> b <> n -> In b (siblings_of F n) ->
  siblings_of F' b = rm n (siblings_of F n).
Proof.
  intros W W' (_ & _ & M) Hb Hin. destruct (wf_share F W n b Hin) as (Hs & Hp).
  destruct (parent_of F n) as [p|] eqn:Ep.
  - rewrite (wf_parent F' W' b p) by now rewrite (mo_parent _ _ _ _ _ M). rewrite (mo_children _ _ _ _ _ M) by easy.
    now rewrite (wf_parent F W n p Ep).
  - rewrite (mo_chain _ _ _ _ _ M) by easy. now rewrite Hs.
Qed.

Section PutBack.
  Context (D : dom) (H : reachable D) (A : acyclic_dom D) (n : nid) (Hn : exists_node D n)
    (D' : dom) (E : step (ODetach n) D = Ok D') (F F' : forest) (S : shows (lk D) F) (S' : shows (lk D') F') (Dt : detached n F F').

  Local Definition RD : reachable D'.
  Proof. apply (reach_step D (ODetach n) D' H); [|exact E]. split; [|exact Logic.I]. now intros m [<-|[]]. Qed.
  Local Lemma no_touch x : ~ touches (lk D') n x.
  Proof. destruct Dt as (H1 & H2 & _). now apply (alone_no_touch D' F'). Qed.
  Local Lemma parents m : m <> n -> parent (lk D') m = parent (lk D) m.
  Proof. intros Hm. rewrite (sh_parent _ _ S), (sh_parent _ _ S'). destruct Dt as (_ & _ & M). now apply M. Qed.
  Local Lemma no_loop m : parent (lk D) m <> Some m.
  Proof. apply (reach_no_self D H A m). Qed.

  Local Lemma finish o D'' F'' : match o with OAppend _ _ | OPrepend _ _ | OInsertAfter _ _ | OInsertBefore _ _ | ODetach _ => True | _ => False end ->
    step o D' = Ok D'' -> shows (lk D'') F'' -> alike n F' F'' -> parent_of F'' n = parent_of F n -> siblings_of F'' n = siblings_of F n ->
    as_before D D''.
  Proof.
    intros Ho Eo S'' Al Hp Hs. destruct (links_step (ODetach n) D D' Logic.I E) as (L & EL). destruct (links_step o D' D'' Ho Eo) as (L' & EL').
    apply (links_only_back D D'' F F''); [now rewrite EL', EL|now rewrite EL', EL|exact S|exact S''|].
    apply (alike_same n F F'' (sh_wf _ _ S) (sh_wf _ _ S'')); [|exact Hp|exact Hs].
    apply (alike_trans n F F' F''); [now apply detach_alike|exact Al].
  Qed.

  Lemma back_after b : previous_sibling (lk D) n = Some b -> exists D'', step (OInsertAfter b n) D' = Ok D'' /\ as_before D D''.
  Proof.
    intros Hb. rewrite (sh_prev _ _ S) in Hb. pose proof (sh_wf _ _ S) as W. pose proof (sh_wf _ _ S') as W'.
    pose proof (wf_nodup F W n) as Nd. pose proof (pred_in_neq _ _ _ Nd Hb) as Hbn.
    pose proof (pred_to_succ _ _ _ Nd Hb) as Hsc. destruct (succ_in_split _ _ _ Hsc) as (l1 & l2 & El).
    assert (Hin : In b (siblings_of F n)) by (rewrite El; apply in_app_iff; right; now left).
    destruct (wf_share F W n b Hin) as (Hs & Hp).
    destruct (reach_insert_after D' RD b n) as (_ & _ & Hr). destruct (Hr Hbn) as (D'' & Eo).
    { intros [T|[T|(_ & [T|T])]]; [exact (no_touch _ T)|exact (no_touch _ T)| |]; rewrite parents in T by exact Hbn.
      - rewrite (sh_parent _ _ S), Hp, <- (sh_parent _ _ S) in T. exact (no_loop n T).
      - exact (no_loop b T). }
    exists D''. split; [exact Eo|]. destruct (insert_after_call D' b n D'' Eo) as (_ & _ & G). destruct (G F' S') as (F'' & S'' & Ia).
    pose proof (sh_wf _ _ S'') as W''. apply (finish (OInsertAfter b n) D'' F'' Logic.I Eo S'').
    - now apply (after_alike b).
    - destruct Ia as (-> & _). destruct Dt as (_ & _ & M). rewrite (mo_parent _ _ _ _ _ M) by exact Hbn. exact Hp.
    - destruct Ia as (_ & (k1 & k2 & E1 & E2) & _).
      rewrite (left_siblings F F' n b W W' Dt Hbn Hin), rm_twice, El in E1.
      rewrite El in Nd. assert (Hno : ~ In n (l1 ++ b :: l2)).
      { change (l1 ++ b :: n :: l2) with (l1 ++ [b] ++ n :: l2) in Nd. rewrite app_assoc in Nd. apply NoDup_remove_2 in Nd.
        now rewrite <- app_assoc in Nd. }
      assert (Er : rm n (l1 ++ b :: n :: l2) = l1 ++ b :: l2).
      { change (l1 ++ b :: n :: l2) with (l1 ++ [b] ++ n :: l2). rewrite app_assoc, rm_mid, <- app_assoc; [reflexivity| |].
        - intros Hx. apply Hno. rewrite in_app_iff in *. cbn [In] in *. tauto.
        - intros Hx. apply Hno. rewrite in_app_iff in *. cbn [In] in *. tauto. }
      rewrite Er in E1. apply mid_unique in E1. 2: { rewrite <- Er. now apply rm_nodup. }
      destruct E1 as (<- & <-). rewrite El, <- E2. apply (wf_share F'' W'' b n). rewrite E2. apply in_app_iff. right. right. now left.
  Qed.

  Lemma back_before c : next_sibling (lk D) n = Some c -> exists D'', step (OInsertBefore c n) D' = Ok D'' /\ as_before D D''.
  Proof.
    intros Hc. rewrite (sh_next _ _ S) in Hc. pose proof (sh_wf _ _ S) as W. pose proof (sh_wf _ _ S') as W'.
    pose proof (wf_nodup F W n) as Nd. pose proof (succ_in_neq _ _ _ Nd Hc) as Hcn.
    destruct (succ_in_split _ _ _ Hc) as (l1 & l2 & El).
    assert (Hin : In c (siblings_of F n)) by (rewrite El; apply in_app_iff; right; right; now left).
    destruct (wf_share F W n c Hin) as (Hs & Hp).
    destruct (reach_insert_before D' RD c n) as (_ & _ & Hr). destruct (Hr Hcn) as (D'' & Eo).
    { intros [T|[T|(_ & T)]]; [exact (no_touch _ T)|exact (no_touch _ T)|]; rewrite parents in T by exact Hcn. exact (no_loop c T). }
    exists D''. split; [exact Eo|]. destruct (insert_before_call D' c n D'' Eo) as (_ & _ & G). destruct (G F' S') as (F'' & S'' & Ia).
    pose proof (sh_wf _ _ S'') as W''. apply (finish (OInsertBefore c n) D'' F'' Logic.I Eo S'').
    - now apply (before_alike c).
    - destruct Ia as (-> & _). destruct Dt as (_ & _ & M). rewrite (mo_parent _ _ _ _ _ M) by exact Hcn. exact Hp.
    - destruct Ia as (_ & (k1 & k2 & E1 & E2) & _).
      rewrite (left_siblings F F' n c W W' Dt Hcn Hin), rm_twice, El in E1.
      rewrite El in Nd. assert (Hno : ~ In n (l1 ++ c :: l2)) by now apply NoDup_remove_2 in Nd.
      assert (Er : rm n (l1 ++ n :: c :: l2) = l1 ++ c :: l2).
      { apply rm_mid; intros Hx; apply Hno; rewrite in_app_iff; tauto. }
      rewrite Er in E1. apply mid_unique in E1. 2: { rewrite <- Er. now apply rm_nodup. }
      destruct E1 as (<- & <-). rewrite El, <- E2. apply (wf_share F'' W'' c n). rewrite E2. apply in_app_iff. right. now left.
  Qed.

  Local Lemma own_parent p : parent (lk D) n = Some p -> p <> n /\ rm n (children_of F' p) = rm n (children_of F p) /\ children_of F' p = rm n (children_of F p).
  Proof.
    intros Hp. split; [intros ->; exact (no_loop n Hp)|]. destruct Dt as (_ & _ & M). rewrite (mo_children _ _ _ _ _ M) by easy.
    split; [apply rm_twice|reflexivity].
  Qed.

  Lemma back_append p : parent (lk D) n = Some p -> next_sibling (lk D) n = None -> exists D'', step (OAppend p n) D' = Ok D'' /\ as_before D D''.
  Proof.
    intros Hp Hx. destruct (own_parent p Hp) as (Hpn & _ & Hk). pose proof (sh_wf _ _ S) as W. pose proof (sh_wf _ _ S') as W'.
    destruct (reach_append D' RD p n) as (_ & _ & Hr). destruct (Hr Hpn) as (D'' & Eo).
    { intros [T|[T|T]]; [exact (no_touch _ T)|exact (no_touch _ T)|]. rewrite (sh_last _ _ S') in T.
      assert (Hin : In p (children_of F' p)).
      { unfold last_error in T. apply in_rev. destruct (rev (children_of F' p)); [discriminate|]. injection T as ->. now left. }
      apply (wf_child F' W') in Hin. rewrite <- (sh_parent _ _ S'), parents in Hin by exact Hpn. exact (no_loop p Hin). }
    exists D''. split; [exact Eo|]. destruct (append_call D' p n D'' Eo) as (_ & _ & G). destruct (G F' S') as (F'' & S'' & Ia).
    pose proof (sh_wf _ _ S'') as W''. rewrite (sh_parent _ _ S) in Hp. rewrite (sh_next _ _ S) in Hx.
    apply (finish (OAppend p n) D'' F'' Logic.I Eo S'').
    - now apply (append_alike p).
    - destruct Ia as (-> & _). now rewrite Hp.
    - destruct Ia as (Ip & Ic & _). rewrite (wf_parent F'' W'' n p Ip), Ic, Hk, rm_twice, (wf_parent F W n p Hp).
      pose proof (wf_nodup F W n) as Nd. pose proof (wf_self F W n) as Hin. rewrite (wf_parent F W n p Hp) in *.
      apply (succ_none_last n _ Nd Hin) in Hx. unfold last_error in Hx.
      destruct (rev (children_of F p)) as [|z r] eqn:Er; [discriminate|]. injection Hx as ->.
      assert (Ec : children_of F p = rev r ++ [n]) by now rewrite <- (rev_involutive (children_of F p)), Er.
      rewrite Ec in *. apply NoDup_remove_2 in Nd. rewrite app_nil_r in Nd. rewrite rm_mid; [now rewrite app_nil_r|exact Nd|easy].
  Qed.

  Lemma back_prepend p : parent (lk D) n = Some p -> previous_sibling (lk D) n = None -> exists D'', step (OPrepend p n) D' = Ok D'' /\ as_before D D''.
  Proof.
    intros Hp Hx. destruct (own_parent p Hp) as (Hpn & _ & Hk). pose proof (sh_wf _ _ S) as W. pose proof (sh_wf _ _ S') as W'.
    destruct (reach_prepend D' RD p n) as (_ & _ & Hr). destruct (Hr Hpn) as (D'' & Eo).
    { intros [T|[T|T]]; [exact (no_touch _ T)|exact (no_touch _ T)|]. rewrite (sh_first _ _ S') in T.
      assert (Hin : In p (children_of F' p)).
      { destruct (children_of F' p); [discriminate|]. injection T as ->. now left. }
      apply (wf_child F' W') in Hin. rewrite <- (sh_parent _ _ S'), parents in Hin by exact Hpn. exact (no_loop p Hin). }
    exists D''. split; [exact Eo|]. destruct (prepend_call D' p n D'' Eo) as (_ & _ & G). destruct (G F' S') as (F'' & S'' & Ia).
    pose proof (sh_wf _ _ S'') as W''. rewrite (sh_parent _ _ S) in Hp. rewrite (sh_prev _ _ S) in Hx.
    apply (finish (OPrepend p n) D'' F'' Logic.I Eo S'').
    - now apply (prepend_alike p).
    - destruct Ia as (-> & _). now rewrite Hp.
    - destruct Ia as (Ip & Ic & _). rewrite (wf_parent F'' W'' n p Ip), Ic, Hk, rm_twice, (wf_parent F W n p Hp).
      pose proof (wf_nodup F W n) as Nd. pose proof (wf_self F W n) as Hin. rewrite (wf_parent F W n p Hp) in *.
      unfold pred_in in Hx. apply (succ_none_last n) in Hx; [|now apply NoDup_rev|now apply in_rev in Hin].
      unfold last_error in Hx. rewrite rev_involutive in Hx. destruct (children_of F p) as [|z r]; [discriminate|].
      injection Hx as ->. rewrite rm_head, rm_notin; [reflexivity|]. now inversion Nd.
  Qed.
End PutBack.

Lemma put_back D n : reachable D -> acyclic_dom D -> exists_node D n ->
  exists D', step (ODetach n) D = Ok D' /\
    (forall b, previous_sibling (lk D) n = Some b -> exists D'', step (OInsertAfter b n) D' = Ok D'' /\ as_before D D'') /\
    (forall c, next_sibling (lk D) n = Some c -> exists D'', step (OInsertBefore c n) D' = Ok D'' /\ as_before D D'') /\
    (forall p, parent (lk D) n = Some p -> next_sibling (lk D) n = None ->
       exists D'', step (OAppend p n) D' = Ok D'' /\ as_before D D'') /\
    (forall p, parent (lk D) n = Some p -> previous_sibling (lk D) n = None ->
       exists D'', step (OPrepend p n) D' = Ok D'' /\ as_before D D'').
Proof.
  intros H A Hn. destruct (reach_detach D H n) as (_ & Hd). destruct (Hd (proj1 (proj2 (reach_no_self D H A n)))) as (D' & E).
  exists D'. split; [exact E|]. destruct (reachable_shows D H) as (F & S). destruct (detach_call D n D' E) as (_ & _ & G).
  destruct (G F S) as (F' & S' & Dt).
  split; [exact (back_after D H A n Hn D' E F F' S S' Dt)|]. split; [exact (back_before D H A n Hn D' E F F' S S' Dt)|].
  split; [exact (back_append D H A n Hn D' E F F' S S' Dt)|exact (back_prepend D H A n Hn D' E F F' S S' Dt)].
Qed.

(* ---- attributes *)
Lemma users_of_attributes D D' : reachable D -> reachable D' -> (forall x, attributes D' x = attributes D x) ->
  forall y, Permutation (linked_nodes D' y) (linked_nodes D y).
Proof.
  intros H H' Ha y. apply (Permutation_count_occ Nat.eq_dec). intros x.
  pose proof (proj1 (mirror_cases D H) x y) as M. pose proof (proj1 (mirror_cases D' H') x y) as M'. unfold times in *.
  rewrite M, M'. unfold uses. now rewrite Ha.
Qed.
Lemma same_nodes_trans D D' D'' : same_nodes D D' -> same_nodes D' D'' -> same_nodes D D''.
Proof. intros [] []. split; intros; etransitivity; eauto. Qed.
Lemma same_nodes_back D D' : reachable D -> reachable D' -> same_nodes D D' -> (forall x, attributes D' x = attributes D x) -> as_before D D'.
Proof.
  intros H H' [] Ha. split; intros; try (rewrite sn_links; reflexivity); auto.
  - now apply users_of_attributes.
  - unfold is_detached. now rewrite sn_key.
Qed.
Lemma others_none name l : ~ In name (map a_name l) -> others name l = l.
Proof.
  unfold others. induction l as [|a l IH]; intros H; [reflexivity|]. cbn [map In filter] in *.
  destruct (aname_eqb (a_name a) name) eqn:E; [apply aname_eqb_eq in E; tauto|]. cbn [negb]. rewrite IH; tauto.
Qed.
Lemma others_others name l a : a_name a = name -> others name (others name l ++ [a]) = others name l.
Proof.
  intros <-. unfold others. rewrite filter_app. cbn [filter]. rewrite (proj2 (aname_eqb_eq (a_name a) (a_name a)) eq_refl). cbn [negb].
  rewrite app_nil_r. induction l as [|x l IH]; [reflexivity|]. cbn [filter]. destruct (negb (aname_eqb (a_name x) (a_name a))) eqn:E; [|exact IH].
  cbn [filter]. rewrite E. now rewrite IH.
Qed.

Lemma attribute_back D n a : reachable D -> legal (OSetAttribute n a) D -> is_element D n = true -> refused D n a = None ->
  ~ In (a_name a) (map a_name (attributes D n)) ->
  exists D' D'', set_attribute n a D = Ok D' /\ remove_attribute n (a_name a) D' = Ok D'' /\ as_before D D''.
Proof.
  intros H Hl He Hr Hno. pose proof (set_cases D n a H He) as C. rewrite Hr in C. destruct C as (D' & E & N & A1 & A2).
  assert (H' : reachable D') by exact (reach_step D (OSetAttribute n a) D' H Hl E).
  destruct (remove_cases D' n (a_name a) H') as (D'' & E' & N' & B1 & B2). exists D', D''. split; [exact E|]. split; [exact E'|].
  assert (Hl' : legal (ORemoveAttribute n (a_name a)) D').
  { split; [|exact Logic.I]. intros m [<-|[]]. unfold exists_node. rewrite (sn_count _ _ N). apply Hl. now left. }
  apply same_nodes_back; [exact H|exact (reach_step D' (ORemoveAttribute n (a_name a)) D'' H' Hl' E')|now apply (same_nodes_trans D D')|].
  intros x. destruct (Nat.eq_dec x n) as [->|Hx]; [|now rewrite B2, A2].
  rewrite B1, A1, others_others by reflexivity. now apply others_none.
Qed.

Lemma set_twice D n a D' : reachable D -> legal (OSetAttribute n a) D -> is_element D n = true -> set_attribute n a D = Ok D' ->
  exists D'', set_attribute n a D' = Ok D'' /\ as_before D' D''.
Proof.
  intros H Hl He E. pose proof (set_cases D n a H He) as C. destruct (refused D n a) as [e|] eqn:Hr; [congruence|].
  destruct C as (D1 & E1 & N & A1 & A2). rewrite E in E1. injection E1 as <-.
  assert (H' : reachable D') by exact (reach_step D (OSetAttribute n a) D' H Hl E).
  assert (He' : is_element D' n = true) by (unfold is_element in *; now rewrite (sn_type _ _ N)).
  assert (Hr' : refused D' n a = None).
  { unfold refused in *. destruct (link_target (a_value a)) as [t|] eqn:Et; [|reflexivity]. rewrite !(sn_id _ _ N).
    destruct (str_eqb (id_of D t) []); [discriminate|]. destruct (str_eqb (id_of D n) (id_of D t)) eqn:Ei; [discriminate|].
    assert (Htn : t <> n) by (intros ->; rewrite (proj2 (str_eqb_eq _ _) eq_refl) in Ei; discriminate).
    unfold uses in *. now rewrite A2. }
  pose proof (set_cases D' n a H' He') as C. rewrite Hr' in C. destruct C as (D'' & E' & N' & B1 & B2).
  assert (Hl' : legal (OSetAttribute n a) D').
  { split; [|exact Logic.I]. intros m Hm. unfold exists_node. rewrite (sn_count _ _ N). now apply Hl. }
  exists D''. split; [exact E'|]. apply same_nodes_back; [exact H'|exact (reach_step D' (OSetAttribute n a) D'' H' Hl' E')|exact N'|].
  intros x. destruct (Nat.eq_dec x n) as [->|Hx]; [|now rewrite B2]. rewrite B1, A1, others_others by reflexivity. reflexivity.
Qed.

(* ---- new nodes removed again *)
Lemma times_filter x l : times x l = length (filter (Nat.eqb x) l).
Proof.
  unfold times. induction l as [|y l IH]; [reflexivity|]. cbn [count_occ filter]. destruct (Nat.eq_dec y x) as [->|Hy].
  - rewrite Nat.eqb_refl. cbn [length]. now rewrite IH.
  - destruct (Nat.eqb_spec x y); [congruence|exact IH].
Qed.

Lemma new_removed D F D' F' t D'' : reachable D -> shows (lk D) F -> reachable D' -> shows (lk D') F' -> tree_at F' t ->
  exists_node D' (t_node t) -> remove_node (t_node t) D' = Ok D'' ->
  droot D' = droot D -> (forall x, exists_node D x -> ~ In x (preorder t)) ->
  (forall x, exists_node D x -> parent_of F' x = parent_of F x /\ siblings_of F' x = siblings_of F x /\ children_of F' x = children_of F x) ->
  (forall x, exists_node D x -> is_detached D' x = is_detached D x /\ node_type D' x = node_type D x /\ tag_name D' x = tag_name D x /\
     id_of D' x = id_of D x /\ text_of D' x = text_of D x /\ attributes D' x = attributes D x /\
     exists us, linked_nodes D' x = linked_nodes D x ++ us /\ forall u, In u us -> In u (preorder t)) ->
  (forall x, In x (preorder t) -> svg_links_only D' x) -> (forall x, exists_node D x -> exists_node D' x) ->
  as_before D D''.
Proof.
  intros H S H' S' Ht Hn E Er Hold Nav Data Svg Ex.
  destruct (remove_cases_api D' F' t H' S' Ht Hn) as (D1 & F'' & E1 & R & S'' & P & _). rewrite E in E1. injection E1 as <-.
  pose proof (shows_inv D F H S) as I. pose proof (sh_wf _ _ S) as W.
  assert (H'' : reachable D'').
  { apply (reach_step D' (ORemoveNode (t_node t)) D'' H'); [|exact E]. split; [|exact Logic.I]. now intros m [<-|[]]. }
  set (N := preorder t) in *.
  assert (Hin : forall x, In x N -> fresh D <= x).
  { intros x Hx. destruct (Nat.lt_ge_cases x (fresh D)) as [Hl|Hl]; [exfalso; exact (Hold x Hl Hx)|exact Hl]. }
  assert (Hkeep : forall l : list nid, (forall c, In c l -> exists_node D c) -> left_of N l = l).
  { intros l Hc. unfold left_of. induction l as [|c l IH]; [reflexivity|]. cbn [filter].
    rewrite (proj2 (mem_not_In c N)) by (apply Hold, Hc; now left). cbn [negb]. rewrite IH; [reflexivity|]. intros d Hd. apply Hc. now right. }
  assert (Hch : forall x c, In c (children_of F x) -> exists_node D c).
  { intros x c Hc. destruct (Nat.lt_ge_cases c (fresh D)) as [Hl|Hl]; [exact Hl|]. exfalso.
    destruct (iv_iso D F I c Hl) as (Hp & _). apply (wf_child F W) in Hc. congruence. }
  assert (Hsi : forall x c, exists_node D x -> In c (siblings_of F x) -> exists_node D c).
  { intros x c Hx Hc. destruct (Nat.lt_ge_cases c (fresh D)) as [Hl|Hl]; [exact Hl|].
    destruct (iv_iso D F I c Hl) as (_ & Hs & _). destruct (wf_share F W x c Hc) as (Hq & _).
    pose proof (wf_self F W x) as Hself. rewrite <- Hq, Hs in Hself. destruct Hself as [<-|[]]. exact Hx. }
  assert (Fo : forall x, exists_node D x -> parent_of F'' x = parent_of F x /\ siblings_of F'' x = siblings_of F x /\ children_of F'' x = children_of F x).
  { intros x Hx. destruct (Nav x Hx) as (N1 & N2 & N3). pose proof (Hold x Hx) as Hno.
    rewrite (pr_parent _ _ _ P x Hno), (pr_siblings _ _ _ P x Hno), (pr_children _ _ _ P x Hno), N1, N2, N3.
    split; [reflexivity|]. split; apply Hkeep; [intros c; now apply Hsi|apply Hch]. }
  split; try (intros x Hx; destruct (Fo x Hx) as (N1 & N2 & N3); destruct (Data x Hx) as (Q1 & Q2 & Q3 & Q4 & Q5 & Q6 & us & Q7 & Q8)).
  - now rewrite (rv_root _ _ _ R).
  - now rewrite (sh_parent _ _ S''), (sh_parent _ _ S), N1.
  - now rewrite (sh_first _ _ S''), (sh_first _ _ S), N3.
  - now rewrite (sh_last _ _ S''), (sh_last _ _ S), N3.
  - now rewrite (sh_next _ _ S''), (sh_next _ _ S), N2.
  - now rewrite (sh_prev _ _ S''), (sh_prev _ _ S), N2.
  - now rewrite (rv_type _ _ _ R).
  - now rewrite (rv_tag _ _ _ R).
  - now rewrite (rv_id _ _ _ R).
  - now rewrite (rv_text _ _ _ R).
  - rewrite (rv_attrs _ _ _ R), Q6.
    assert (G : forall l, (forall a, In a l -> cut N x a = false) -> filter (fun a => negb (cut N x a)) l = l).
    { induction l as [|a l IH]; intros Hc; [reflexivity|]. cbn [filter]. rewrite Hc by now left. cbn [negb]. rewrite IH; [reflexivity|].
      intros b Hb. apply Hc. now right. }
    apply G. intros a Ha. unfold cut. destruct (svg_link a); [|reflexivity]. cbn [andb].
    rewrite (proj2 (mem_not_In x N) (Hold x Hx)). cbn [orb]. destruct (link_target (a_value a)) as [b|] eqn:Eb; [|reflexivity].
    apply mem_not_In. apply Hold. apply (target_exists D F x b I). apply count_links_pos. now exists a.
  - apply (Permutation_count_occ Nat.eq_dec). intros z. change (times z (linked_nodes D'' x) = times z (linked_nodes D x)).
    destruct (in_dec Nat.eq_dec z N) as [Hz|Hz].
    + rewrite (proj1 (mirror_cases D'' H'')), (proj1 (mirror_cases D H)).
      assert (U0 : uses D z x = 0).
      { unfold uses. replace (attributes D z) with (@nil attr); [reflexivity|]. unfold attributes. now rewrite (iv_blank D F I z (Hin z Hz)). }
      rewrite U0. unfold uses. rewrite (rv_attrs _ _ _ R).
      assert (G : forall l, (forall a t0, In a l -> link_target (a_value a) = Some t0 -> exists id, a_name a = QId id) ->
        length (filter (fun y => match link_target (a_value y) with Some t0 => Nat.eqb t0 x | None => false end)
                       (filter (fun a => negb (cut N z a)) l)) = 0).
      { induction l as [|a l IH]; intros Hs; [reflexivity|]. cbn [filter].
        assert (IH' := IH (fun b t0 Hb => Hs b t0 (or_intror Hb))). destruct (negb (cut N z a)) eqn:Ec; [|exact IH']. cbn [filter].
        destruct (link_target (a_value a)) as [b|] eqn:Eb; [|exact IH']. exfalso.
        destruct (Hs a b (or_introl eq_refl) Eb) as (id & Eid). unfold cut, svg_link, is_link_container in Ec. rewrite Eid in Ec.
        rewrite (proj2 (mem_In z N) Hz) in Ec. destruct (a_value a); discriminate. }
      apply G. exact (Svg z Hz).
    + rewrite !times_filter, (rv_linked _ _ _ R (Nat.eqb z)), Q7, filter_app.
      * assert (Eu : @filter nid (Nat.eqb z) us = []); [|unfold nid in *; rewrite Eu, app_nil_r; reflexivity].
        clear - Q8 Hz. induction us as [|u us IH]; [reflexivity|]. cbn [filter]. destruct (Nat.eqb_spec z u) as [->|_].
        -- exfalso. apply Hz, Q8. now left.
        -- apply IH. intros v Hv. apply Q8. now right.
      * intros s Hs. destruct (Nat.eqb_spec z s) as [->|_]; [contradiction|reflexivity].
      * now apply Hold.
  - rewrite <- Q1. unfold is_detached. now rewrite (rv_key _ _ _ R), (proj2 (mem_not_In x N) (Hold x Hx)).
Qed.

Lemma created_back D n D' : reachable D -> reachable D' -> new_node n D D' -> exists D'', remove_node n D' = Ok D'' /\ as_before D D''.
Proof.
  intros H H' Nw. destruct (reachable_shows D H) as (F & S). pose proof (shows_inv D F H S) as I. pose proof (sh_wf _ _ S) as W.
  assert (El : lk D' = lk D) by apply (nw_only _ _ _ Nw).
  assert (S' : shows (lk D') F) by now rewrite El.
  assert (Hge : fresh D <= n).
  { pose proof (nw_before _ _ _ Nw) as Hb. unfold exists_node in Hb. lia. }
  destruct (iv_iso D F I n Hge) as (Ip & Is & Ic).
  assert (Ht : tree_at F (T n [])) by (constructor; [exact Ic|constructor]).
  assert (Hn : exists_node D' n) by (apply (nw_after _ _ _ Nw); now right).
  destruct (remove_cases_api D' F (T n []) H' S' Ht Hn) as (D'' & _ & E & _). exists D''. split; [exact E|].
  apply (new_removed D F D' F (T n []) D'' H S H' S' Ht Hn E).
  - apply (nw_only _ _ _ Nw).
  - intros x Hx [<-|[]]. unfold exists_node in Hx. cbn in Hx. lia.
  - intros x _. tauto.
  - intros x Hx. assert (Hxn : x <> n) by (unfold exists_node in Hx; lia).
    destruct (on_nodes _ _ _ (nw_only _ _ _ Nw) x Hxn) as [q1 q2 q3 q4 q5 q6 q7].
    do 6 (split; [assumption|]). exists []. rewrite app_nil_r. now split.
  - intros x [<-|[]] a t Ha. cbn [t_node] in *. rewrite (nw_attrs _ _ _ Nw) in Ha. destruct Ha.
  - intros x Hx. apply (nw_after _ _ _ Nw). now left.
Qed.

Lemma copied_links D D' t u : copied_tree D D' t u -> (forall x, In x (preorder t) -> svg_links_only D x) ->
  forall y, In y (preorder u) -> svg_links_only D' y.
Proof.
  revert u. induction t as [n ts IH] using tree_ind'. intros u C Hs y Hy. inversion C as [? ? m us Co Fa]; subst.
  destruct Hy as [<-|Hy].
  - intros a b Ha. rewrite (co_attrs _ _ _ _ Co) in Ha. apply (Hs n); [now left|exact Ha].
  - apply in_flat_map in Hy. destruct Hy as (k & Hk & Hy).
    assert (X : exists t0, In t0 ts /\ copied_tree D D' t0 k).
    { clear - Fa Hk. induction Fa as [|a b la lb Hab _ IHf]; [contradiction|]. destruct Hk as [<-|Hk].
      - exists a. split; [now left|exact Hab].
      - destruct (IHf Hk) as (t0 & H1 & H2). exists t0. split; [now right|exact H2]. }
    destruct X as (t0 & H1 & H2). rewrite Forall_forall in IH. apply (IH t0 H1 k H2); [|exact Hy].
    intros x Hx. apply Hs. right. apply in_flat_map. now exists t0.
Qed.

Lemma copy_back D F t m D' : reachable D -> shows (lk D) F -> tree_at F t -> exists_node D (t_node t) ->
  (forall x, In x (preorder t) -> svg_links_only D x) -> copy_node_deep (t_node t) D = Ok (m, D') ->
  exists D'', remove_node m D' = Ok D'' /\ as_before D D''.
Proof.
  intros H S Ht Hn Hs E.
  destruct (proj1 (deep_exact_api D F (t_node t) H S Hn) (ex_intro _ _ E)) as (t' & Et & Ht' & Hc).
  assert (t' = t) by (apply (tree_at_unique F); [exact Ht'|exact Ht|exact Et]). subst t'.
  destruct (deep_api D F t H S Ht Hn Hc) as (D1 & F' & u & E1 & S' & C & Hu & P & Si & N & G & O).
  rewrite E in E1. injection E1 as -> <-.
  assert (H' : reachable D').
  { apply (reach_step D (OCopyNodeDeep (t_node t)) D' H); [|cbn [step]; now rewrite E]. split; [|exact Logic.I]. now intros x [<-|[]]. }
  assert (Hm : exists_node D' (t_node u)) by apply N, preorder_self.
  destruct (remove_cases_api D' F' u H' S' Hu Hm) as (D'' & _ & E' & _). exists D''. split; [exact E'|].
  apply (new_removed D F D' F' u D'' H S H' S' Hu Hm E').
  - apply (gr_root _ _ _ G).
  - intros x Hx Hin. now apply N in Hin.
  - exact O.
  - intros x Hx. unfold is_detached. rewrite (gr_key _ _ _ G x Hx). split; [reflexivity|].
    split; [apply (gr_type _ _ _ G x Hx)|]. split; [apply (gr_tag _ _ _ G x Hx)|]. split; [apply (gr_id _ _ _ G x Hx)|].
    split; [apply (gr_text _ _ _ G x Hx)|]. split; [apply (gr_attr _ _ _ G x Hx)|].
    destruct (gr_link _ _ _ G x Hx) as (us & Eu & Fu & _). exists us. split; [exact Eu|]. intros v Hv. rewrite Forall_forall in Fu.
    apply N. destruct (Fu v Hv). unfold exists_node. lia.
  - now apply (copied_links D D' t u).
  - intros x Hx. unfold exists_node in *. pose proof (gr_fresh _ _ _ G). lia.
Qed.

(* detach() twice *)
Lemma detach_twice D n D' : reachable D -> exists_node D n -> step (ODetach n) D = Ok D' ->
  exists D'', step (ODetach n) D' = Ok D'' /\ as_before D' D''.
Proof.
  intros H Hn E. destruct (reachable_shows D H) as (F & S). destruct (detach_call D n D' E) as (_ & _ & G).
  destruct (G F S) as (F' & S' & Dt). assert (H' : reachable D').
  { apply (reach_step D (ODetach n) D' H); [|exact E]. split; [|exact Logic.I]. now intros m [<-|[]]. }
  destruct Dt as (P1 & P2 & _). destruct (reach_detach D' H' n) as (_ & Hd).
  destruct (Hd (alone_no_touch D' F' n n S' P1 P2)) as (D'' & E2). exists D''. split; [exact E2|].
  destruct (detach_call D' n D'' E2) as (Ed & _ & G'). destruct (G' F' S') as (F'' & S'' & Dt').
  destruct (links_step (ODetach n) D' D'' Logic.I E2) as (L2 & EL2).
  apply (links_only_back D' D'' F' F''); [exact Ed|now rewrite EL2|exact S'|exact S''|].
  apply (alike_same n F' F'' (sh_wf _ _ S') (sh_wf _ _ S'')); [now apply detach_alike| |]; destruct Dt' as (Q1 & Q2 & _); congruence.
Qed.

(* ---- setters *)
Lemma only_back n D D' D'' : only_node n D D' -> only_node n D' D'' -> same_node n D D'' -> as_before D D''.
Proof.
  intros [a1 a2 a3] [b1 b2 b3] Sn. assert (X : forall m, same_node m D D'').
  { intros m. destruct (Nat.eq_dec m n) as [->|Hm]; [exact Sn|]. destruct (a3 m Hm), (b3 m Hm). split; congruence. }
  split; try (intros m _; destruct (X m); first [assumption | now rewrite b1, a1 | now rewrite sm_linked]). congruence.
Qed.
Lemma id_back D n s : is_element D n = true ->
  exists D' D'', set_id n s D = Ok D' /\ set_id n (id_of D n) D' = Ok D'' /\ as_before D D''.
Proof.
  intros He. destruct (proj2 (set_id_api D n s) He) as (D' & E & O & _ & _ & (Q1 & Q2 & Q3 & Q4 & Q5 & Q6)).
  assert (He' : is_element D' n = true) by (unfold is_element in *; now rewrite Q1).
  destruct (proj2 (set_id_api D' n (id_of D n)) He') as (D'' & E' & O' & _ & V & (R1 & R2 & R3 & R4 & R5 & R6)).
  exists D', D''. split; [exact E|]. split; [exact E'|]. apply (only_back n D D' D'' O O'). split; congruence.
Qed.
Lemma text_back D n s : is_element D n = false ->
  exists D' D'', set_text n s D = Ok D' /\ set_text n (text_of D n) D' = Ok D'' /\ as_before D D''.
Proof.
  intros He. destruct (proj2 (set_text_api D n s) He) as (D' & E & O & _ & _ & (Q1 & Q2 & Q3 & Q4 & Q5 & Q6)).
  assert (He' : is_element D' n = false) by (unfold is_element in *; now rewrite Q1).
  destruct (proj2 (set_text_api D' n (text_of D n)) He') as (D'' & E' & O' & _ & V & (R1 & R2 & R3 & R4 & R5 & R6)).
  exists D', D''. split; [exact E|]. split; [exact E'|]. apply (only_back n D D' D'' O O'). split; congruence.
Qed.
Lemma tag_back D n t : reachable D -> is_element D n = true -> t <> QName [] ->
  exists D' D'', set_tag_name n t D = Ok D' /\ set_tag_name n (tag_name D n) D' = Ok D'' /\ as_before D D''.
Proof.
  intros H He Ht. destruct (reachable_inv D H) as (F & I & _).
  destruct (proj2 (set_tag_api D n t) He Ht) as (D' & E & O & _ & _ & (Q1 & Q2 & Q3 & Q4 & Q5 & Q6)).
  assert (He' : is_element D' n = true) by (unfold is_element in *; now rewrite Q1).
  assert (Hg : tag_name D n <> QName []).
  { intros Z. pose proof (iv_tag D F I n He) as W. rewrite Z in W. discriminate W. }
  destruct (proj2 (set_tag_api D' n (tag_name D n)) He' Hg) as (D'' & E' & O' & _ & V & (R1 & R2 & R3 & R4 & R5 & R6)).
  exists D', D''. split; [exact E|]. split; [exact E'|]. apply (only_back n D D' D'' O O'). split; congruence.
Qed.
Lemma create_back D n D' : reachable D ->
  (exists t, create_element t D = Ok (n, D')) \/ (exists ty s, create_node ty s D = Ok (n, D')) ->
  exists D'', remove_node n D' = Ok D'' /\ as_before D D''.
Proof.
  intros H [(t & E)|(ty & s & E)].
  - assert (Ht : t <> QName []) by (intros ->; rewrite (proj1 (create_element_api D (QName []) H) eq_refl) in E; discriminate).
    destruct (proj2 (create_element_api D t H) Ht) as (n1 & D1 & E1 & Nw & _). rewrite E in E1. injection E1 as <- <-.
    apply (created_back D n D' H); [|exact Nw]. apply (reach_step D (OCreateElement t) D' H); [|cbn [step]; now rewrite E].
    split; [easy|exact Logic.I].
  - destruct (create_node_api D ty s H) as (P & Q).
    assert (T1 : ty <> NElement) by (intros Z; rewrite (P (or_introl Z)) in E; discriminate E).
    assert (T2 : ty <> NRoot) by (intros Z; rewrite (P (or_intror Z)) in E; discriminate E).
    destruct (Q T1 T2) as (n1 & D1 & E1 & Nw & _). rewrite E in E1. injection E1 as <- <-.
    apply (created_back D n D' H); [|exact Nw]. apply (reach_step D (OCreateNode ty s) D' H); [|cbn [step]; now rewrite E].
    split; [easy|exact Logic.I].
Qed.
