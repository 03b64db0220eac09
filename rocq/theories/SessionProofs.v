(* Proofs about iterators in a document that changes. *)
From Coq Require Import List Bool PeanoNat NArith Lia.
From Verif Require Import Base Ids Links Tree Iter ForestSpec ListFacts TreeProofs ForestFacts IterSpec IterProofs TreeSpec TreeApi
  Data Attrs Slab NodeApi Doc DocSpec History InvProofs HistoryProofs ApiProofs SessionSpec.
Import ListNotations.

Lemma onid_eqb_eq a b : onid_eqb a b = true <-> a = b.
Proof. destruct a, b; cbn; rewrite ?Nat.eqb_eq; split; intros H; try congruence; try discriminate. Qed.

Lemma nth_tl {A} (c : A) l k : map (nth_error (c :: l)) (seq 1 k) = map (nth_error l) (seq 0 k).
Proof. rewrite <- seq_shift, map_map. now apply map_ext. Qed.
Lemma answers_cons {A} (c : A) l k : answers (c :: l) (S k) = Some c :: answers l k.
Proof. unfold answers. cbn [seq map]. now rewrite nth_tl. Qed.
Lemma answers_nil {A} k : answers (@nil A) (S k) = None :: answers [] k.
Proof. unfold answers. cbn [seq map nth_error]. f_equal. rewrite <- seq_shift, map_map. apply map_ext. intros i. now destruct i. Qed.

(* ---- children() *)
Lemma next_at D F c pre rest : shows (lk D) F -> siblings_of F c = pre ++ c :: rest -> next_sibling (lk D) c = hd_error rest.
Proof.
  intros S E. rewrite (sh_next _ _ S). pose proof (wf_nodup F (sh_wf _ _ S) c) as N. rewrite E in *. now apply succ_in_at.
Qed.
Lemma prev_at D F c pre post : shows (lk D) F -> siblings_of F c = pre ++ c :: post -> previous_sibling (lk D) c = hd_error (rev pre).
Proof.
  intros S E. rewrite (sh_prev _ _ S). unfold pred_in. pose proof (wf_nodup F (sh_wf _ _ S) c) as N. rewrite E in *.
  apply NoDup_rev in N. rewrite rev_app_distr in N |- *. cbn [rev] in N |- *. rewrite <- app_assoc in N |- *. now apply succ_in_at.
Qed.

Lemma children_done Ds : forall b, children_session Ds (mkChildren None b) = answers [] (length Ds).
Proof.
  induction Ds as [|D Ds IH]; intros b; cbn [children_session length]; [easy|]. rewrite answers_nil.
  unfold children_next. cbn [c_next c_back]. destruct (children_finished _ _); cbn [fst snd]; now rewrite IH.
Qed.
Lemma children_session_gen Ds : forall l b, (forall i D, nth_error Ds i = Some D -> still_last D (skipn i l)) ->
  hd_error (rev l) = Some b \/ l = [] ->
  children_session Ds (mkChildren (hd_error l) (Some b)) = answers l (length Ds).
Proof.
  induction Ds as [|D Ds IH]; intros l b H Hb; [easy|].
  destruct l as [|c rest]; [apply children_done|]. cbn [hd_error].
  destruct Hb as [Hb|]; [|discriminate].
  cbn [children_session length]. rewrite answers_cons.
  destruct (H 0 D eq_refl) as (F & S & Hs). cbn [skipn] in Hs.
  assert (Hn : next_sibling (lk D) b = None).
  { destruct (Hs b) as (pre & E). { apply in_rev. destruct (rev _); [discriminate|]. injection Hb as ->. now left. }
    assert (exists m, c :: rest = m ++ [b]) as (m & Em).
    { exists (rev (tl (rev (c :: rest)))). rewrite <- (rev_involutive (c :: rest)) at 1. destruct (rev (c :: rest)); [discriminate|].
      injection Hb as ->. cbn. reflexivity. }
    rewrite Em, app_assoc in E. now rewrite (next_at D F b (pre ++ m) [] S). }
  unfold children_next, children_finished. cbn [c_next c_back]. rewrite Hn. cbn [onid_eqb fst snd].
  f_equal. destruct (Hs c (or_introl eq_refl)) as (pre & E). rewrite (next_at D F c pre rest S E).
  apply IH.
  - intros i D' Hi. apply (H (Datatypes.S i)). exact Hi.
  - destruct rest as [|d rest]; [now right|left]. cbn [rev] in *. destruct (rev rest ++ [d]) eqn:E2; [|now cbn in *].
    now destruct (rev rest).
Qed.
Theorem children_session_spec D F p Ds : reachable D -> shows (lk D) F ->
  (forall i D', nth_error Ds i = Some D' -> still_last D' (skipn i (children_of F p))) ->
  children_session Ds (children (lk D) p) = answers (children_of F p) (length Ds).
Proof.
  intros _ S H. unfold children. rewrite (sh_first _ _ S), (sh_last _ _ S). unfold last_error.
  destruct (hd_error (rev (children_of F p))) as [b|] eqn:Eb.
  - apply children_session_gen; [exact H|now left].
  - assert (E : children_of F p = []).
    { rewrite <- (rev_involutive (children_of F p)). destruct (rev (children_of F p)); [easy|discriminate]. }
    rewrite E. apply children_done.
Qed.

Lemma children_back_done Ds : forall a, children_back_session Ds (mkChildren a None) = answers [] (length Ds).
Proof.
  induction Ds as [|D Ds IH]; intros a; cbn [children_back_session length]; [easy|]. rewrite answers_nil.
  unfold children_next_back. cbn. now rewrite IH.
Qed.
Lemma children_back_gen Ds : forall l a, (forall i D, nth_error Ds i = Some D -> still_first D (rev (skipn i l))) ->
  hd_error (rev l) = Some a \/ l = [] ->
  children_back_session Ds (mkChildren (Some a) (hd_error l)) = answers l (length Ds).
Proof.
  induction Ds as [|D Ds IH]; intros l a H Ha; [easy|].
  destruct l as [|c rest]; [apply children_back_done|]. cbn [hd_error].
  destruct Ha as [Ha|]; [|discriminate].
  cbn [children_back_session length]. rewrite answers_cons.
  destruct (H 0 D eq_refl) as (F & S & Hs). cbn [skipn rev] in Hs.
  destruct (Hs c) as (post & E); [apply in_app_iff; right; now left|].
  rewrite <- app_assoc in E. cbn [app] in E.
  assert (Hn : next_sibling (lk D) c <> Some a).
  { rewrite (next_at D F c _ _ S E). pose proof (wf_nodup F (sh_wf _ _ S) c) as N. rewrite E in N.
    destruct post as [|y post]; [discriminate|]. cbn. intros [= ->].
    assert (Ia : In a (rev rest ++ [c])).
    { cbn [rev] in Ha. destruct (rev rest ++ [c]); [discriminate|]. injection Ha as ->. now left. }
    assert (N2 : NoDup ((rev rest ++ [c]) ++ a :: post)) by now rewrite <- app_assoc.
    apply NoDup_remove_2 in N2. apply N2. apply in_app_iff. now left. }
  unfold children_next_back, children_finished. cbn [c_next c_back].
  destruct (onid_eqb (next_sibling (lk D) c) (Some a)) eqn:Eq; [now apply onid_eqb_eq in Eq|]. cbn [fst snd].
  f_equal. rewrite (prev_at D F c (rev rest) post S E), rev_involutive.
  apply IH.
  - intros i D' Hi. apply (H (Datatypes.S i)). exact Hi.
  - destruct rest as [|d rest]; [now right|left]. cbn [rev] in *. destruct (rev rest ++ [d]) eqn:E2; [|now cbn in *].
    now destruct (rev rest).
Qed.
Theorem children_back_spec D F p Ds : reachable D -> shows (lk D) F ->
  (forall i D', nth_error Ds i = Some D' -> still_first D' (rev (skipn i (rev (children_of F p))))) ->
  children_back_session Ds (children (lk D) p) = answers (rev (children_of F p)) (length Ds).
Proof.
  intros _ S H. unfold children. rewrite (sh_first _ _ S), (sh_last _ _ S). unfold last_error.
  destruct (hd_error (children_of F p)) as [a|] eqn:Ea.
  - apply children_back_gen; [exact H|left]. now rewrite rev_involutive.
  - destruct (children_of F p); [|discriminate]. apply children_back_done.
Qed.

(* ---- traverse() and descendants() *)
Lemma next_edge D root l e : still_ahead D root (e :: l) -> next_item (lk D) root e = hd_error l /\
  forall l', still_ahead D root l' -> True.
Proof.
  intros (F & t & pre & S & Ht & <- & E). split; [|easy].
  apply shows_Rep in S. now destruct (good_split _ _ (edges t) pre e l (traverse_good _ F t S Ht) E).
Qed.
Definition walk (root : nid) (l : list edge) : traverse_it := mkTraverse root (hd_error l) (Some (End root)).
Lemma walk_step D root l : still_ahead D root l ->
  traverse_next (lk D) (walk root l) = match l with [] => (None, walk root []) | e :: l => (Some e, walk root l) end.
Proof.
  intros H. unfold traverse_next, traverse_finished, walk. cbn [t_root t_next t_back].
  cbn [next_item]. rewrite Nat.eqb_refl. destruct l as [|e l]; [easy|]. cbn [hd_error oedge_eqb].
  now rewrite (proj1 (next_edge D root l e H)).
Qed.
Lemma walk_done D root : traverse_next (lk D) (walk root []) = (None, walk root []).
Proof. unfold traverse_next, traverse_finished, walk. cbn. now rewrite Nat.eqb_refl. Qed.
Lemma traverse_done Ds root : traverse_session Ds (walk root []) = answers [] (length Ds).
Proof. induction Ds as [|D Ds IH]; [easy|]. cbn [traverse_session length]. now rewrite walk_done, answers_nil, <- IH. Qed.
Lemma traverse_session_gen root Ds : forall l,
  (forall i D, nth_error Ds i = Some D -> skipn i l = [] \/ still_ahead D root (skipn i l)) ->
  traverse_session Ds (walk root l) = answers l (length Ds).
Proof.
  induction Ds as [|D Ds IH]; intros l H; [easy|]. destruct l as [|e l]; [apply traverse_done|].
  cbn [traverse_session length]. destruct (H 0 D eq_refl) as [|H0]; [discriminate|]. cbn [skipn] in H0.
  rewrite (walk_step D root _ H0), answers_cons. cbn [fst snd]. f_equal. apply IH. intros i D' Hi. apply (H (Datatypes.S i)). exact Hi.
Qed.
Theorem traverse_session_spec D F t Ds : reachable D -> shows (lk D) F -> tree_at F t ->
  (forall i D', nth_error Ds i = Some D' -> skipn i (edges t) = [] \/ still_ahead D' (t_node t) (skipn i (edges t))) ->
  traverse_session Ds (traverse (t_node t)) = answers (edges t) (length Ds).
Proof.
  intros _ S Ht H. unfold traverse. rewrite <- edges_hd. now apply traverse_session_gen.
Qed.

Lemma started_starts l : started l = starts l.
Proof. induction l as [|[n|n] l IH]; cbn; congruence. Qed.
Lemma descend_step D root : forall fuel l, length l < fuel -> still_ahead D root l ->
  descendants_next fuel (lk D) (walk root l) = Ok (hd_error (started l), walk root (after_start l)).
Proof.
  induction fuel as [|fuel IH]; intros l Hf H; [lia|]. cbn [descendants_next]. rewrite (walk_step D root l H).
  destruct l as [|[n|n] l]; [easy|easy|]. cbn [started after_start]. apply IH; [cbn in Hf; lia|].
  destruct H as (F & t & pre & S & Ht & Er & E). exists F, t, (pre ++ [End n]). rewrite <- app_assoc. auto.
Qed.
Lemma descend_done D root fuel : 0 < fuel -> descendants_next fuel (lk D) (walk root []) = Ok (None, walk root []).
Proof. destruct fuel; [lia|]. intros _. cbn [descendants_next]. now rewrite walk_done. Qed.
Lemma started_after l : started l = match started l with [] => [] | n :: _ => n :: started (after_start l) end.
Proof. induction l as [|[n|n] l IH]; cbn; easy. Qed.
Lemma after_length l : length (after_start l) <= length l.
Proof. induction l as [|[n|n] l IH]; cbn; lia. Qed.
Lemma after_none l : started l = [] -> after_start l = [].
Proof. induction l as [|[n|n] l IH]; cbn; easy. Qed.
Lemma descend_finished fuel root : 0 < fuel -> forall Ds,
  descendants_session fuel Ds (walk root []) = Ok (answers [] (length Ds)).
Proof.
  intros Hf. induction Ds as [|D Ds IH]; [easy|]. cbn [descendants_session length]. rewrite descend_done by exact Hf. cbn [bind fst snd].
  rewrite IH. cbn [bind]. now rewrite answers_nil.
Qed.
Lemma descendants_session_gen root fuel : forall Ds l, length l < fuel ->
  (forall i D, nth_error Ds i = Some D -> ahead i l = [] \/ still_ahead D root (ahead i l)) ->
  descendants_session fuel Ds (walk root l) = Ok (answers (started l) (length Ds)).
Proof.
  induction Ds as [|D Ds IH]; intros l Hf H; [easy|].
  destruct (H 0 D eq_refl) as [H0|H0]; cbn [ahead] in H0.
  { subst l. apply descend_finished. lia. }
  cbn [descendants_session length]. rewrite (descend_step D root fuel l Hf H0). cbn [bind fst snd].
  rewrite IH.
  - cbn [bind]. f_equal. rewrite (started_after l). destruct (started l) as [|n s] eqn:E.
    + rewrite (after_none l E). cbn [started hd_error]. now rewrite answers_nil.
    + cbn [hd_error]. now rewrite answers_cons.
  - pose proof (after_length l). lia.
  - intros i D' Hi. apply (H (Datatypes.S i)). exact Hi.
Qed.
Theorem descendants_session_spec D F t Ds : reachable D -> exists_node D (t_node t) -> shows (lk D) F -> tree_at F t ->
  (forall i D', nth_error Ds i = Some D' -> ahead i (edges t) = [] \/ still_ahead D' (t_node t) (ahead i (edges t))) ->
  descendants_session (2 * enough D) Ds (traverse (t_node t)) = Ok (answers (preorder t) (length Ds)).
Proof.
  intros R Hn S Ht H. unfold traverse. rewrite <- edges_hd. rewrite <- starts_edges, <- started_starts.
  apply descendants_session_gen; [|exact H]. rewrite edges_length.
  pose proof (tree_size D F t (shows_inv D F R S) Ht Hn). unfold enough. lia.
Qed.

(* ---- loops *)
(* one turn: the body takes [c] out of the children of [p] *)
Lemma for_children_turn (body : nid -> dom -> res dom) (P : list nid -> dom -> Prop) D F p c rest b fuel :
  shows (lk D) F -> children_of F p = c :: rest -> hd_error (rev (c :: rest)) = Some b ->
  for_children lk (Datatypes.S fuel) body (mkChildren (Some c) (Some b)) D =
  (D' <- body c D ;; for_children lk fuel body (mkChildren (hd_error rest) (Some b)) D').
Proof.
  intros S Ec Hb. cbn [for_children]. pose proof (sh_wf _ _ S) as W.
  assert (Hsib : forall x, In x (c :: rest) -> siblings_of F x = c :: rest).
  { intros x Hx. rewrite <- Ec in *. pose proof (wf_child F W p x Hx) as Hp. now apply (wf_parent F W x p). }
  assert (Hbi : In b (c :: rest)) by (apply in_rev; destruct (rev (c :: rest)); [discriminate|]; injection Hb as ->; now left).
  assert (Hn : next_sibling (lk D) b = None).
  { assert (exists m, c :: rest = m ++ [b]) as (m & Em).
    { exists (rev (tl (rev (c :: rest)))). rewrite <- (rev_involutive (c :: rest)) at 1. destruct (rev (c :: rest)); [discriminate|].
      injection Hb as ->. cbn. reflexivity. }
    apply (next_at D F b m [] S). now rewrite (Hsib b Hbi), Em. }
  unfold children_next, children_finished. cbn [c_next c_back]. rewrite Hn. cbn [onid_eqb].
  now rewrite (next_at D F c [] rest S (Hsib c (or_introl eq_refl))).
Qed.
Lemma last_tl (c : nid) rest b : hd_error (rev (c :: rest)) = Some b -> rest = [] \/ hd_error (rev rest) = Some b.
Proof.
  intros Hb. destruct rest as [|d rest]; [now left|right]. cbn [rev] in *. destruct (rev rest ++ [d]) eqn:E2; [|now cbn in *].
  now destruct (rev rest).
Qed.
Lemma for_children_end body D b fuel : for_children lk (Datatypes.S fuel) body (mkChildren None b) D = Ok D.
Proof. cbn [for_children]. unfold children_next. cbn [c_next]. now destruct (children_finished _ _). Qed.

Lemma rm_absent n l : ~ In n l -> rm n l = l.
Proof.
  intros H. unfold rm. induction l as [|x l IH]; [easy|]. cbn in *. destruct (Nat.eqb_spec x n) as [->|]; [tauto|]. cbn. f_equal. tauto.
Qed.
Lemma rm_head c rest : ~ In c rest -> rm c (c :: rest) = rest.
Proof. intros H. unfold rm. cbn [filter]. rewrite Nat.eqb_refl. cbn. now apply rm_absent. Qed.

Definition no_own (D : dom) : Prop := forall x, parent (lk D) x <> Some x.

Theorem move_all p q : forall l fuel D F b, reachable D -> shows (lk D) F -> no_own D -> p <> q -> ~ In q l ->
  exists_node D q -> (forall c, In c l -> exists_node D c) ->
  children_of F p = l -> (l = [] \/ hd_error (rev l) = Some b) -> length l < fuel ->
  exists D', for_children lk fuel (fun c => step (OAppend q c)) (mkChildren (hd_error l) (Some b)) D = Ok D' /\
    reachable D' /\ dt D' = dt D /\ store D' = store D /\
    exists F', shows (lk D') F' /\ children_of F' p = [] /\ children_of F' q = children_of F q ++ l /\
      (forall x, x <> p -> x <> q -> children_of F' x = children_of F x) /\
      (forall x, ~ In x l -> parent_of F' x = parent_of F x) /\
      (forall x, parent_of F x = None -> siblings_of F' x = siblings_of F x).
Proof.
  induction l as [|c rest IH]; intros fuel D F b R S No Hpq Hq Eq El Ec Hb Hf; (destruct fuel as [|fuel]; [cbn in Hf; lia|]).
  - exists D. split; [apply for_children_end|]. repeat (split; [easy|]). exists F. split; [easy|]. split; [easy|].
    split; [now rewrite app_nil_r|]. easy.
  - destruct Hb as [|Hb]; [discriminate|]. cbn [hd_error].
    rewrite (for_children_turn _ (fun _ _ => True) D F p c rest b fuel S Ec Hb).
    pose proof (sh_wf _ _ S) as W. pose proof (children_nodup F W p) as Nd. rewrite Ec in Nd. apply NoDup_cons_iff in Nd. destruct Nd as (Nc & Nd).
    assert (Hcp : parent_of F c = Some p) by (apply (wf_child F W); rewrite Ec; now left).
    assert (Hqc : q <> c) by (intros ->; apply Hq; now left).
    assert (Hsib : siblings_of F c = c :: rest) by (rewrite (wf_parent F W c p Hcp); exact Ec).
    assert (Hnt : forall x, touches (lk D) c x -> x = p \/ In x rest).
    { intros x Hx. apply (touches_adjoining (lk D) F c x (proj1 (shows_Rep _ _) S)) in Hx. unfold adjoining in Hx.
      rewrite Hcp, Hsib in Hx. apply in_app_iff in Hx.
      assert (Hpr : pred_in c (c :: rest) = None).
      { rewrite <- Hsib, <- (sh_prev _ _ S), (prev_at D F c [] rest S Hsib). easy. }
      rewrite Hpr in Hx. cbn [succ_in] in Hx. rewrite Nat.eqb_refl in Hx. destruct rest as [|d rest]; cbn in Hx.
      - intuition auto.
      - cbn. intuition auto. }
    destruct (reach_append D R q c) as (_ & _ & Go). destruct Go as (D1 & E1).
    + exact Hqc.
    + intros [T|[T|T]].
      * apply Hnt in T. destruct T as [->|T]; [easy|]. apply Hq. now right.
      * apply Hnt in T. destruct T as [T|T]; [|contradiction]. subst c. apply (No p). now rewrite (sh_parent _ _ S).
      * rewrite (sh_last _ _ S) in T. apply (No q). rewrite (sh_parent _ _ S). apply (wf_child F W).
        unfold last_error in T. apply in_rev. destruct (rev (children_of F q)); [discriminate|]. injection T as ->. now left.
    + rewrite E1. cbn [bind].
      assert (R1 : reachable D1).
      { apply (reach_step D (OAppend q c) D1 R); [|exact E1]. split; [|exact Logic.I]. intros x [<-|[<-|[]]]; [easy|]. apply El. now left. }
      destruct (append_call D q c D1 E1) as (Ed & Es & Hc). destruct (Hc F S) as (F1 & S1 & Hpa & Hch & Mo). destruct Mo as [Mp Mc _ Ms].
      assert (Ef : fresh D1 = fresh D).
      { clear - E1. cbn [step] in E1. unfold on_links in E1. destruct (append [] q c (lk D)); cbn in E1; try discriminate. now injection E1 as <-. }
      assert (Hcq : ~ In c (children_of F q)).
      { intros X. apply (wf_child F W) in X. congruence. }
      destruct (IH fuel D1 F1 b R1 S1) as (D2 & E2 & R2 & Ed2 & Es2 & F2 & S2 & Hp2 & Hq2 & Ho2 & Hpa2 & Hs2).
      * intros x Hx. rewrite (sh_parent _ _ S1) in Hx. destruct (Nat.eq_dec x c) as [->|Hxc]; [congruence|].
        rewrite Mp in Hx by exact Hxc. apply (No x). now rewrite (sh_parent _ _ S).
      * exact Hpq.
      * intros X. apply Hq. now right.
      * unfold exists_node in *. now rewrite Ef.
      * intros x Hx. unfold exists_node in *. rewrite Ef. apply El. now right.
      * rewrite Mc by exact Hpq. rewrite Ec. now apply rm_head.
      * now apply (last_tl c).
      * cbn in Hf. lia.
      * exists D2. split; [exact E2|]. split; [exact R2|]. split; [congruence|]. split; [congruence|].
        exists F2. split; [exact S2|]. split; [exact Hp2|]. split; [|split].
        -- rewrite Hq2, Hch, (rm_absent c) by exact Hcq. now rewrite <- app_assoc.
        -- intros x Hx Hxq. rewrite Ho2 by easy. rewrite Mc by easy. apply rm_absent. intros X. apply (wf_child F W) in X. congruence.
        -- split; [intros x Hx; rewrite Hpa2 by (intros X; apply Hx; now right); apply Mp; intros ->; apply Hx; now left|].
           intros x Hx. assert (Hxc : x <> c) by congruence. rewrite Hs2 by now rewrite Mp. rewrite Ms by easy. apply rm_absent.
           intros X. apply (wf_share F W) in X. destruct X as (_ & X). congruence.
Qed.

Theorem detach_all p : forall l fuel D F b, reachable D -> shows (lk D) F -> no_own D ->
  (forall c, In c l -> exists_node D c) ->
  children_of F p = l -> (l = [] \/ hd_error (rev l) = Some b) -> length l < fuel ->
  exists D', for_children lk fuel (fun c => step (ODetach c)) (mkChildren (hd_error l) (Some b)) D = Ok D' /\
    reachable D' /\ dt D' = dt D /\ store D' = store D /\
    exists F', shows (lk D') F' /\ children_of F' p = [] /\
      (forall c, In c l -> parent_of F' c = None /\ siblings_of F' c = [c]) /\
      (forall x, x <> p -> children_of F' x = children_of F x) /\
      (forall x, ~ In x l -> parent_of F' x = parent_of F x) /\
      (forall x, parent_of F x = None -> siblings_of F' x = siblings_of F x).
Proof.
  induction l as [|c rest IH]; intros fuel D F b R S No El Ec Hb Hf; (destruct fuel as [|fuel]; [cbn in Hf; lia|]).
  - exists D. split; [apply for_children_end|]. repeat (split; [easy|]). exists F. split; [easy|]. split; [easy|]. split; [easy|]. easy.
  - destruct Hb as [|Hb]; [discriminate|]. cbn [hd_error].
    rewrite (for_children_turn _ (fun _ _ => True) D F p c rest b fuel S Ec Hb).
    pose proof (sh_wf _ _ S) as W. pose proof (children_nodup F W p) as Nd. rewrite Ec in Nd. apply NoDup_cons_iff in Nd. destruct Nd as (Nc & Nd).
    assert (Hcp : parent_of F c = Some p) by (apply (wf_child F W); rewrite Ec; now left).
    assert (Hsib : siblings_of F c = c :: rest) by (rewrite (wf_parent F W c p Hcp); exact Ec).
    destruct (reach_detach D R c) as (_ & Go). destruct Go as (D1 & E1).
    + intros Hx. apply (touches_adjoining (lk D) F c c (proj1 (shows_Rep _ _) S)) in Hx. unfold adjoining in Hx.
      rewrite Hcp, Hsib in Hx. apply in_app_iff in Hx.
      assert (Hpr : pred_in c (c :: rest) = None).
      { rewrite <- Hsib, <- (sh_prev _ _ S), (prev_at D F c [] rest S Hsib). easy. }
      assert (Hpc : p <> c) by (intros ->; apply (No c); now rewrite (sh_parent _ _ S)).
      rewrite Hpr in Hx. cbn [succ_in] in Hx. rewrite Nat.eqb_refl in Hx. destruct rest as [|d rest]; cbn in Hx, Nc; intuition auto.
    + rewrite E1. cbn [bind].
      assert (R1 : reachable D1).
      { apply (reach_step D (ODetach c) D1 R); [|exact E1]. split; [|exact Logic.I]. intros x [<-|[]]. apply El. now left. }
      destruct (detach_call D c D1 E1) as (Ed & Es & Hc). destruct (Hc F S) as (F1 & S1 & Hpa & Hch & Mo). destruct Mo as [Mp Mc _ Ms].
      assert (Ef : fresh D1 = fresh D).
      { clear - E1. cbn [step] in E1. unfold on_links in E1. destruct (detach [] c (lk D)); cbn in E1; try discriminate. now injection E1 as <-. }
      destruct (IH fuel D1 F1 b R1 S1) as (D2 & E2 & R2 & Ed2 & Es2 & F2 & S2 & Hp2 & Hq2 & Ho2 & Hpa2 & Hs2).
      * intros x Hx. rewrite (sh_parent _ _ S1) in Hx. destruct (Nat.eq_dec x c) as [->|Hxc]; [congruence|].
        rewrite Mp in Hx by exact Hxc. apply (No x). now rewrite (sh_parent _ _ S).
      * intros x Hx. unfold exists_node in *. rewrite Ef. apply El. now right.
      * rewrite Mc by easy. rewrite Ec. now apply rm_head.
      * now apply (last_tl c).
      * cbn in Hf. lia.
      * exists D2. split; [exact E2|]. split; [exact R2|]. split; [congruence|]. split; [congruence|].
        exists F2. split; [exact S2|]. split; [exact Hp2|]. split; [|split].
        -- intros x [<-|Hx]; [|now apply Hq2]. split; [now rewrite Hpa2|]. now rewrite Hs2.
        -- intros x Hx. rewrite Ho2 by easy. rewrite Mc by easy. apply rm_absent. intros X. apply (wf_child F W) in X. congruence.
        -- split; [intros x Hx; rewrite Hpa2 by (intros X; apply Hx; now right); apply Mp; intros ->; apply Hx; now left|].
           intros x Hx. assert (Hxc : x <> c) by congruence. rewrite Hs2 by now rewrite Mp. rewrite Ms by easy. apply rm_absent.
           intros X. apply (wf_share F W) in X. destruct X as (_ & X). congruence.
Qed.

Lemma children_exist D F p : reachable D -> shows (lk D) F -> forall c, In c (children_of F p) -> exists_node D c.
Proof.
  intros R S c Hc. pose proof (shows_inv D F R S) as I. destruct (Nat.lt_ge_cases c (fresh D)) as [|Hge]; [easy|exfalso].
  destruct (iv_iso D F I c Hge) as (Hp & _). pose proof (wf_child F (sh_wf _ _ S) p c Hc). congruence.
Qed.
Lemma children_few D F p : reachable D -> shows (lk D) F -> length (children_of F p) < enough D.
Proof.
  intros R S. unfold enough. assert (length (children_of F p) <= length (seq 0 (fresh D))); [|rewrite seq_length in *; lia].
  apply NoDup_incl_length; [apply children_nodup, (sh_wf _ _ S)|]. intros c Hc. apply in_seq.
  pose proof (children_exist D F p R S c Hc). unfold exists_node in *. lia.
Qed.
Lemma children_start D F p : shows (lk D) F ->
  exists b, (children_of F p = [] \/ hd_error (rev (children_of F p)) = Some b) /\ forall body fuel,
  for_children lk (Datatypes.S fuel) body (children (lk D) p) D =
  for_children lk (Datatypes.S fuel) body (mkChildren (hd_error (children_of F p)) (Some b)) D.
Proof.
  intros S. unfold children. rewrite (sh_first _ _ S), (sh_last _ _ S). unfold last_error.
  destruct (children_of F p) as [|c l] eqn:E.
  - exists 0. split; [now left|]. intros. cbn [rev hd_error]. now rewrite !for_children_end.
  - destruct (hd_error (rev (c :: l))) as [b|] eqn:Eb; [exists b; split; [now right|easy]|].
    cbn [rev] in Eb. destruct (rev l); discriminate.
Qed.

Theorem move_all_children D F p q : reachable D -> shows (lk D) F -> no_own D -> exists_node D q -> p <> q -> parent (lk D) q <> Some p ->
  exists D', for_children lk (enough D) (fun c => step (OAppend q c)) (children (lk D) p) D = Ok D' /\
    reachable D' /\ dt D' = dt D /\
    exists F', shows (lk D') F' /\ children_of F' p = [] /\ children_of F' q = children_of F q ++ children_of F p /\
      (forall x, x <> p -> x <> q -> children_of F' x = children_of F x) /\
      (forall x, parent_of F x = None -> parent_of F' x = None /\ siblings_of F' x = siblings_of F x).
Proof.
  intros R S No Hq Hpq Hqp. destruct (children_start D F p S) as (b & Hb & E). unfold enough. rewrite E.
  destruct (move_all p q (children_of F p) (enough D) D F b) as (D' & E' & R' & Ed & _ & F' & S' & H1 & H2 & H3 & H4 & H5); auto.
  - intros X. apply Hqp. rewrite (sh_parent _ _ S). now apply (wf_child F (sh_wf _ _ S)).
  - now apply children_exist.
  - now apply children_few.
  - exists D'. split; [exact E'|]. split; [exact R'|]. split; [exact Ed|]. exists F'. repeat (split; [easy|]).
    intros x Hx. split; [|now apply H5]. rewrite H4; [easy|]. intros X. apply (wf_child F (sh_wf _ _ S)) in X. congruence.
Qed.
Theorem detach_all_children D F p : reachable D -> shows (lk D) F -> no_own D ->
  exists D', for_children lk (enough D) (fun c => step (ODetach c)) (children (lk D) p) D = Ok D' /\
    reachable D' /\ dt D' = dt D /\
    exists F', shows (lk D') F' /\ children_of F' p = [] /\
      (forall c, In c (children_of F p) -> parent_of F' c = None /\ siblings_of F' c = [c]) /\
      (forall x, x <> p -> children_of F' x = children_of F x) /\
      (forall x, parent_of F x = None -> parent_of F' x = None /\ siblings_of F' x = siblings_of F x).
Proof.
  intros R S No. destruct (children_start D F p S) as (b & Hb & E). unfold enough. rewrite E.
  destruct (detach_all p (children_of F p) (enough D) D F b) as (D' & E' & R' & Ed & _ & F' & S' & H1 & H2 & H3 & H4 & H5); auto.
  - now apply children_exist.
  - now apply children_few.
  - exists D'. split; [exact E'|]. split; [exact R'|]. split; [exact Ed|]. exists F'. repeat (split; [easy|]).
    intros x Hx. split; [|now apply H5]. rewrite H4; [easy|]. intros X. apply (wf_child F (sh_wf _ _ S)) in X. congruence.
Qed.

(* reading the edges of a walk off its answers *)
Lemma deque_read {A} (r : list A) : forall l, deque_run l (repeat Front (Datatypes.S (length r))) = map Some r ++ [None] -> l = r.
Proof.
  induction r as [|x r IH]; intros l H; cbn in H.
  - destruct l; [easy|discriminate].
  - destruct l as [|y l]; [discriminate|]. injection H as -> H. f_equal. now apply IH.
Qed.
Lemma ahead_read D root r pre l : reachable D -> acyclic_dom D -> exists_node D root ->
  traverse_run (lk D) (traverse root) (repeat Front (Datatypes.S (length r))) = map Some r ++ [None] -> r = pre ++ l ->
  still_ahead D root l.
Proof.
  intros R A Hn Hr E. destruct (reachable_shows D R) as (F & S).
  destruct (tree_exists F root (sh_wf _ _ S) (shows_acyclic D F R A S)) as (t & <- & Ht).
  exists F, t, pre. split; [exact S|]. split; [exact Ht|]. split; [easy|].
  destruct (reach_traverse D F t R Hn S Ht) as (Hc & _). rewrite Hc in Hr. apply deque_read in Hr. congruence.
Qed.
