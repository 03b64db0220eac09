(* The invariant of programs with several documents that do not mix their nodes. *)
From Coq Require Import List Bool PeanoNat NArith Lia.
From Verif Require Import Base Ids Links Tree Iter ForestSpec ListFacts TreeProofs ForestFacts
  Data Attrs Slab SlabProofs NodeApi Doc AttrFacts LinkProofs DocSpec RemoveProofs History InvProofs
  HistoryProofs NodeProofs World WorldSpec WorldSim WorldProofs.
Import ListNotations.

Definition all_none (L : links) (n : nid) : Prop :=
  l_root L n = None /\ l_parent L n = None /\ l_first L n = None /\ l_last L n = None /\ l_prev L n = None /\ l_next L n = None.
Definition nothing_above (D : dom) : Prop := forall n, fresh D <= n -> all_none (lk D) n /\ dt D n = blank.
Lemma bounded_nothing D : bounded D -> nothing_above D.
Proof. intros B n Hn. split; [now apply (bd_none D B)|now apply (bd_blank D B)]. Qed.

Lemma ds_none f V D : DS f V D V -> nothing_above D -> nothing_above V.
Proof.
  intros H B n Hn. pose proof (ds_fresh f V D V H (n - fresh V)) as E. replace (fresh V + (n - fresh V)) with n in E by lia.
  destruct (B (fresh D + (n - fresh V))) as ((A1 & A2 & A3 & A4 & A5 & A6) & A7); [lia|].
  pose proof (ds_lk f V D V H) as HL. split.
  - unfold all_none. rewrite <- E, (g_root f V _ _ HL), (g_parent f V _ _ HL), (g_first f V _ _ HL), (g_last f V _ _ HL),
      (g_prev f V _ _ HL), (g_next f V _ _ HL), A1, A2, A3, A4, A5, A6. easy.
  - rewrite <- E. rewrite (proj1 (ds_dt f V D V H)), A7. easy.
Qed.

Lemma fsim_base f h h' h0 : fsim f h h' h0 -> fsim f h h' h'.
Proof. intros (A & _). now split. Qed.
Lemma ds_base f V0 D V : DS f V0 D V -> DS f V D V.
Proof.
  intros [[A1 A2 A3 A4 A5 A6] (B & _) C E G]. split; try easy. split; now eapply fsim_base; eassumption.
Qed.

Lemma ds_lt f V0 D V n : injective f -> DS f V0 D V -> n < fresh D -> f n < fresh V.
Proof.
  intros Hf H Hn. destruct (Nat.lt_ge_cases (f n) (fresh V)) as [|Hle]; [easy|].
  pose proof (ds_fresh f V0 D V H (f n - fresh V)) as E. replace (fresh V + (f n - fresh V)) with (f n) in E by lia.
  apply Hf in E. lia.
Qed.
Lemma ds_ge f V0 D V n : DS f V0 D V -> fresh D <= n -> f n = fresh V + (n - fresh D).
Proof. intros H Hn. rewrite <- (ds_fresh f V0 D V H). f_equal. lia. Qed.

(* what a call leaves alone *)
Lemma ds_frame f V0 D V m : DS f V0 D V -> ~ image f m -> same_at V0 V m.
Proof.
  intros H Hm. destruct (ds_lk f V0 D V H) as [(_ & A1) (_ & A2) (_ & A3) (_ & A4) (_ & A5) (_ & A6)].
  unfold same_at. rewrite A1, A2, A3, A4, A5, A6 by easy. repeat split; try easy. now apply (ds_dt f V0 D V H).
Qed.

(* ---- other handles for the nodes to come *)
Section Reindex.
  Context (f : nid -> nid) (D V V' : dom).
  Context (Hf : injective f) (B : bounded D) (H : DS f V D V)
    (Hsame : forall n, n < fresh D -> same_at V V' (f n)) (Hle : fresh V <= fresh V') (Hnone : nothing_above V')
    (Hroot : droot V' = droot V) (Hstore : store V' = store V).
  Definition reindex : nid -> nid := fun n => if Nat.ltb n (fresh D) then f n else n - fresh D + fresh V'.

  Lemma reindex_old n : n < fresh D -> reindex n = f n.
  Proof. clear. intros Hn. unfold reindex. now destruct (Nat.ltb_spec n (fresh D)); [|lia]. Qed.
  Lemma reindex_new n : fresh D <= n -> reindex n = n - fresh D + fresh V'.
  Proof. clear. intros Hn. unfold reindex. now destruct (Nat.ltb_spec n (fresh D)); [lia|]. Qed.
  Lemma reindex_inj : injective reindex.
  Proof.
    intros a b. pose proof (fun n => ds_lt f V D V n Hf H) as Hlt. unfold reindex.
    destruct (Nat.ltb_spec a (fresh D)) as [Ha|Ha], (Nat.ltb_spec b (fresh D)) as [Hb|Hb].
    - apply Hf.
    - specialize (Hlt a Ha). lia.
    - specialize (Hlt b Hb). lia.
    - lia.
  Qed.
  Lemma reindex_option o : olt (fresh D) o -> option_map reindex o = option_map f o.
  Proof. intros Ho. destruct o as [m|]; cbn; [|easy]. now rewrite reindex_old; [|apply Ho]. Qed.
  Lemma reindex_value v : olt (fresh D) (link_target v) -> rename_value reindex v = rename_value f v.
  Proof. intros Ho. destruct v; cbn; try easy; now rewrite reindex_old; [|apply Ho]. Qed.
  Lemma reindex_data n : rename_data reindex (dt D n) = rename_data f (dt D n).
  Proof.
    unfold rename_data. f_equal.
    - apply map_ext_in. intros a Ha. unfold rename_attr. f_equal. apply reindex_value. intros t Ht.
      exact (bd_attrs D B n a t Ha Ht).
    - apply map_ext_in. intros m Hm. apply reindex_old. exact (bd_linked D B n m Hm).
  Qed.
  Lemma reindex_ds : DS reindex V' D V'.
  Proof.
    assert (HL := ds_lk f V D V H).
    split.
    - split; (split; [|easy]); intros n; destruct (Nat.lt_ge_cases n (fresh D)) as [Hn|Hn].
      all: destruct (bd_links D B n) as (B1 & B2 & B3 & B4 & B5 & B6).
      all: rewrite ?(reindex_old n Hn), ?(reindex_new n Hn).
      all: try (destruct (Hsame n Hn) as (S1 & S2 & S3 & S4 & S5 & S6 & _)).
      all: try (destruct (bd_none D B n Hn) as (N1 & N2 & N3 & N4 & N5 & N6);
                destruct (Hnone (n - fresh D + fresh V')) as ((M1 & M2 & M3 & M4 & M5 & M6) & _); [lia|]).
      + rewrite S1, (g_root f V _ _ HL). now rewrite reindex_option.
      + now rewrite M1, N1.
      + rewrite S2, (g_parent f V _ _ HL). now rewrite reindex_option.
      + now rewrite M2, N2.
      + rewrite S3, (g_first f V _ _ HL). now rewrite reindex_option.
      + now rewrite M3, N3.
      + rewrite S4, (g_last f V _ _ HL). now rewrite reindex_option.
      + now rewrite M4, N4.
      + rewrite S5, (g_prev f V _ _ HL). now rewrite reindex_option.
      + now rewrite M5, N5.
      + rewrite S6, (g_next f V _ _ HL). now rewrite reindex_option.
      + now rewrite M6, N6.
    - split; [|easy]. intros n. rewrite reindex_data. destruct (Nat.lt_ge_cases n (fresh D)) as [Hn|Hn].
      + rewrite (reindex_old n Hn). destruct (Hsame n Hn) as (_ & _ & _ & _ & _ & _ & ->). apply (ds_dt f V D V H).
      + rewrite (reindex_new n Hn). destruct (Hnone (n - fresh D + fresh V')) as (_ & ->); [lia|]. now rewrite (bd_blank D B n Hn).
    - intros k. rewrite reindex_new by lia. lia.
    - rewrite Hroot, (ds_root f V D V H). symmetry. apply reindex_old, (bd_root D B).
    - destruct (ds_store f V D V H) as (A1 & A2 & A3). rewrite Hstore. split; [|easy]. rewrite A1. apply map_ext_in.
      intros [n|k] Hin; cbn; [|easy]. now rewrite reindex_old; [|apply (bd_store D B)].
  Qed.
End Reindex.

(* ---- the same call on the document alone *)
Definition hosts (f : nid -> nid) (D V : dom) (ow : nid -> nat) (i : nat) : Prop :=
  injective f /\ reachable D /\ DS f V D V /\
  (forall m, m < fresh V -> (ow m = i <-> exists n, n < fresh D /\ f n = m)).

Section Closure.
  Context (f : nid -> nid) (D0 V0 : dom) (Hf : injective f) (H0 : DS f V0 D0 V0).
  Definition back (m : nid) : option nid :=
    if Nat.ltb m (fresh V0) then find (fun n => Nat.eqb (f n) m) (seq 0 (fresh D0)) else Some (m - fresh V0 + fresh D0).
  Lemma back_some m n : back m = Some n <-> f n = m.
  Proof.
    unfold back. destruct (Nat.ltb_spec m (fresh V0)) as [Hm|Hm].
    - destruct (find (fun n => Nat.eqb (f n) m) (seq 0 (fresh D0))) as [k|] eqn:E.
      + apply find_some in E. destruct E as (_ & E). apply Nat.eqb_eq in E. split; [intros [= <-]; easy|].
        intros En. f_equal. apply Hf. congruence.
      + split; [easy|]. intros En. exfalso. pose proof (find_none _ _ E) as Hn.
        assert (Hlt : n < fresh D0).
        { destruct (Nat.lt_ge_cases n (fresh D0)) as [|Hle]; [easy|]. pose proof (ds_ge f V0 D0 V0 n H0 Hle). lia. }
        specialize (Hn n). rewrite in_seq in Hn. specialize (Hn ltac:(lia)). cbn in Hn. apply Nat.eqb_neq in Hn. easy.
    - split.
      + intros [= <-]. rewrite (ds_ge f V0 D0 V0) by (easy || lia). lia.
      + intros <-. destruct (Nat.lt_ge_cases n (fresh D0)) as [Hl|Hle].
        * pose proof (ds_lt f V0 D0 V0 n Hf H0 Hl). lia.
        * rewrite (ds_ge f V0 D0 V0 n H0 Hle). f_equal. lia.
  Qed.
  Definition there (h h0 : nid -> option nid) : nid -> option nid :=
    fun m => match back m with Some n => option_map f (h n) | None => h0 m end.
  Definition embed (D : dom) : dom :=
    mkDom (mkLinks (there (l_root (lk D)) (l_root (lk V0))) (there (l_parent (lk D)) (l_parent (lk V0)))
                   (there (l_first (lk D)) (l_first (lk V0))) (there (l_last (lk D)) (l_last (lk V0)))
                   (there (l_prev (lk D)) (l_prev (lk V0))) (there (l_next (lk D)) (l_next (lk V0))))
          (fun m => match back m with Some n => rename_data f (dt D n) | None => dt V0 m end)
          (f (fresh D)) (f (droot D))
          (mkSlab (map (rename_entry f) (s_entries (store D))) (s_next (store D)) (s_len (store D))).
  Lemma there_same h h' h0 m : fsim f h h' h0 -> there h h0 m = h' m.
  Proof.
    intros (A & C). unfold there. destruct (back m) as [n|] eqn:E.
    - apply back_some in E. now rewrite <- E, A.
    - rewrite C; [easy|]. intros (n & En). symmetry in En. apply back_some in En. congruence.
  Qed.
  Lemma embed_same D V : DS f V0 D V -> same_dom (embed D) V.
  Proof.
    intros [[A1 A2 A3 A4 A5 A6] (B & C) E G (S1 & S2 & S3)]. split; cbn.
    - intros m. rewrite (there_same _ _ _ m A1), (there_same _ _ _ m A2), (there_same _ _ _ m A3), (there_same _ _ _ m A4),
        (there_same _ _ _ m A5), (there_same _ _ _ m A6). easy.
    - intros m. destruct (back m) as [n|] eqn:Eb.
      + apply back_some in Eb. now rewrite <- Eb, B.
      + rewrite C; [easy|]. intros (n & En). symmetry in En. apply back_some in En. congruence.
    - generalize (E 0). now rewrite !Nat.add_0_r.
    - easy.
    - rewrite <- S1, <- S2, <- S3. now destruct (store V).
  Qed.
End Closure.

Lemma own_attr f (D : dom) a : (forall t, link_target (a_value a) = Some t -> exists n, n < fresh D /\ f n = t) ->
  exists a0, rename_attr f a0 = a /\ forall t, link_target (a_value a0) = Some t -> t < fresh D.
Proof.
  intros Ha. destruct a as [x v]. cbn in Ha.
  assert (Hv : exists v0, rename_value f v0 = v /\ forall t, link_target v0 = Some t -> t < fresh D).
  { destruct v; try (destruct (Ha n eq_refl) as (k & Hk & <-)).
    all: try (match goal with |- exists _, _ = ?v /\ _ => exists v end; split; [easy|cbn; easy]).
    - exists (VFuncLink k). split; [easy|]. now intros t [= <-].
    - exists (VPaint k f0). split; [easy|]. now intros t [= <-].
    - exists (VLink k). split; [easy|]. now intros t [= <-]. }
  destruct Hv as (v0 & <- & Hv). exists (mkAttr x v0). now split.
Qed.

Lemma attrs_get_rename f l x : attrs_get (map (rename_attr f) l) x = option_map (rename_attr f) (attrs_get l x).
Proof. induction l as [|a l IH]; cbn; [easy|]. now destruct (aname_eqb (a_name a) x). Qed.

Lemma own_op f D V i ow o : hosts f D V ow i -> legal o V -> sees_state o -> (forall n, In n (handles o) -> ow n = i) ->
  exists o0, op_sim f V o0 o /\ renamed_op f o0 o /\ legal o0 D.
Proof.
  intros (Hf & Hr & H & Ho) (Hex & Hpl) Hs Hown.
  assert (Hh : forall n, In n (handles o) -> exists k, k < fresh D /\ f k = n).
  { intros n Hn. apply Ho; [now apply Hex|now apply Hown]. }
  clear Hex Hown.
  assert (K : forall o', renamed_op f o' o -> (forall m p, o' <> ODrain m p) ->
              (forall m, In m (handles o') -> m < fresh D) -> plain_edit o' D -> exists o0, op_sim f V o0 o /\ renamed_op f o0 o /\ legal o0 D).
  { intros o' H1 H2 H3 H4. exists o'. split; [now apply os_other|]. split; [easy|]. now split. }
  destruct o; cbn [handles] in Hh; cbn [sees_state] in Hs.
  all: try (destruct (Hh n) as (k & Hk & <-); [now left|]).
  all: try (destruct (Hh n (or_intror (or_introl eq_refl))) as (k & Hk & <-)).
  all: try (destruct (Hh p (or_introl eq_refl)) as (k1 & Hk1 & <-)).
  all: try (destruct (Hh a (or_introl eq_refl)) as (k1 & Hk1 & <-)).
  - eapply K; [constructor|easy|easy|easy].
  - eapply K; [constructor|easy|easy|easy].
  - eapply K; [constructor|easy| |easy]. cbn. now intros m [<-|[]].
  - destruct (Hh root) as (k & Hk & <-); [now left|].
    exists (ODrain k (fun D1 x => f0 (embed f D V D1) (f x))). split; [|split; [constructor|]].
    + constructor. intros D1 V1 x H1. apply Hs. now apply embed_same.
    + split; [|easy]. cbn. now intros m [<-|[]].
  - eapply K; [constructor|easy| |easy]. cbn. now intros m [<-|[]].
  - eapply K; [constructor|easy| |easy]. cbn. now intros m [<-|[]].
  - eapply K; [constructor|easy| |easy]. cbn. now intros m [<-|[]].
  - eapply K; [constructor|easy| |easy]. cbn. now intros m [<-|[<-|[]]].
  - eapply K; [constructor|easy| |easy]. cbn. now intros m [<-|[<-|[]]].
  - eapply K; [constructor|easy| |easy]. cbn. now intros m [<-|[<-|[]]].
  - eapply K; [constructor|easy| |easy]. cbn. now intros m [<-|[<-|[]]].
  - eapply K; [constructor|easy| |easy]. cbn. now intros m [<-|[]].
  - eapply K; [constructor|easy| |easy]. cbn. now intros m [<-|[]].
  - eapply K; [constructor|easy| |easy]. cbn. now intros m [<-|[]].
  - eapply K; [constructor|easy| |easy]. cbn. now intros m [<-|[]].
  - destruct (own_attr f D a) as (a0 & <- & Ha0). { intros t Ht. apply Hh. right. rewrite Ht. now left. }
    eapply K; [constructor|easy| |easy]. cbn. intros m [<-|Hm]; [easy|].
    destruct (link_target (a_value a0)) as [t|] eqn:Et; [|easy]. destruct Hm as [<-|[]]. now apply Ha0.
  - destruct (own_attr f D a) as (a0 & <- & Ha0). { intros t Ht. apply Hh. right. rewrite Ht. now left. }
    eapply K; [constructor|easy| |easy]. cbn. intros m [<-|Hm]; [easy|].
    destruct (link_target (a_value a0)) as [t|] eqn:Et; [|easy]. destruct Hm as [<-|[]]. now apply Ha0.
  - destruct (own_attr f D a) as (a0 & <- & Ha0). { intros t Ht. apply Hh. right. rewrite Ht. now left. }
    eapply K; [constructor|easy| |easy]. cbn. intros m [<-|Hm]; [easy|].
    destruct (link_target (a_value a0)) as [t|] eqn:Et; [|easy]. destruct Hm as [<-|[]]. now apply Ha0.
  - eapply K; [constructor|easy| |easy]. cbn. now intros m [<-|[]].
  - cbn [plain_edit] in Hpl. destruct Hpl as (P1 & P2 & P3).
    assert (Ea : rename_attr f a = a) by (destruct a as [x v]; unfold rename_attr; cbn in *; now destruct v).
    apply (K (OAttributeMut k name a)); [rewrite <- Ea at 2; constructor|easy| |].
    + cbn. now intros m [<-|[]].
    + cbn. split; [easy|]. split.
      * intros old Eo. specialize (P2 (rename_attr f old)). rewrite (ds_attrs f V D V k H), attrs_get_rename, Eo in P2.
        specialize (P2 eq_refl). cbn in P2. rewrite target_rename in P2. now destruct (link_target (a_value old)).
      * destruct P3 as [P3|P3]; [now left|right]. now rewrite (ds_has_attr f V D V k _ H) in P3.
Qed.

(* ---- the whole program *)
Record WI (W : world) : Prop := {
  wi_none  : nothing_above (mkDom (w_lk W) (w_dt W) (w_fresh W) 0 slab_new);
  wi_owner : forall m, m < w_fresh W -> w_owner W m < length (w_docs W);
  wi_doc   : forall i V, view W i = Some V -> exists f D, hosts f D V (w_owner W) i
}.

Lemma view_some W i V : view W i = Some V ->
  lk V = w_lk W /\ dt V = w_dt W /\ fresh V = w_fresh W /\ nth_error (w_docs W) i = Some (Some (droot V, store V)).
Proof.
  unfold view. destruct (nth_error (w_docs W) i) as [[[r s]|]|]; try easy. intros [= <-]. easy.
Qed.
Lemma nothing_ext V V' : lk V = lk V' -> dt V = dt V' -> fresh V = fresh V' -> nothing_above V -> nothing_above V'.
Proof. intros E1 E2 E3 H n. rewrite <- E1, <- E2, <- E3. apply H. Qed.

Lemma nth_replace_same {A} i (x : A) l : i < length l -> nth_error (replace_at i x l) i = Some x.
Proof. revert i. induction l as [|y l IH]; intros [|i] H; cbn in *; try lia; [easy|]. apply IH. lia. Qed.
Lemma nth_replace_other {A} i j (x : A) l : i <> j -> nth_error (replace_at i x l) j = nth_error l j.
Proof. revert i j. induction l as [|y l IH]; intros [|i] [|j] H; cbn in *; try easy. apply IH. lia. Qed.
Lemma replace_length {A} i (x : A) l : length (replace_at i x l) = length l.
Proof. revert i. induction l as [|y l IH]; intros [|i]; cbn; auto. Qed.

(* a document that the change leaves alone *)
Lemma other_doc f D V V' ow ow' i : hosts f D V ow i ->
  (forall m, m < fresh V -> ow m = i -> same_at V V' m) -> (forall m, m < fresh V -> ow' m = ow m) ->
  (forall m, fresh V <= m < fresh V' -> ow' m <> i) ->
  fresh V <= fresh V' -> nothing_above V' -> droot V' = droot V -> store V' = store V ->
  hosts (reindex f D V') D V' ow' i.
Proof.
  intros (Hf & Hr & H & Ho) Hsame Hold Hnew Hle Hnone Hroot Hstore.
  pose proof (reachable_bounded D Hr) as B.
  assert (Hs : forall n, n < fresh D -> same_at V V' (f n)).
  { intros n Hn. pose proof (ds_lt f V D V n Hf H Hn) as Hlt. apply Hsame; [easy|]. apply Ho; [easy|]. now exists n. }
  split; [now apply (reindex_inj f D V V')|]. split; [easy|]. split; [now apply (reindex_ds f D V V')|].
  intros m Hm. destruct (Nat.lt_ge_cases m (fresh V)) as [Hl|Hg].
  - rewrite (Hold m Hl), (Ho m Hl). split; intros (n & Hn & E); exists n; (split; [easy|]).
    + now rewrite reindex_old.
    + now rewrite reindex_old in E.
  - split; [intros E; exfalso; now apply (Hnew m)|]. intros (n & Hn & E). rewrite reindex_old in E by easy.
    pose proof (ds_lt f V D V n Hf H Hn). lia.
Qed.

(* the effect of a call on document [i], from a simulation with the base V *)
Lemma frame_of f D V D' V' ow i m : hosts f D V ow i -> DS f V D' V' -> m < fresh V -> ow m <> i -> same_at V V' m.
Proof.
  intros (Hf & Hr & H & Ho) H' Hm Hi. apply (ds_frame f V D' V' m H'). intros (n & ->).
  destruct (Nat.lt_ge_cases n (fresh D)) as [Hn|Hn].
  - apply Hi, Ho; [easy|]. now exists n.
  - pose proof (ds_ge f V D V n H Hn). lia.
Qed.

Lemma fresh_of f D V D' V' ow i : hosts f D V ow i -> DS f V D' V' -> fresh D <= fresh D' ->
  fresh V' = fresh V + (fresh D' - fresh D).
Proof.
  intros (Hf & Hr & H & Ho) H' Hle. pose proof (ds_fresh f V D' V' H' 0) as E1.
  pose proof (ds_ge f V D V (fresh D') H Hle) as E2. rewrite !Nat.add_0_r in E1. congruence.
Qed.

Lemma put_view_same i V W V' : view W i = Some V -> view (put i V' W) i = Some V'.
Proof.
  intros H. apply view_some in H. destruct H as (_ & _ & _ & Hn). unfold view, put. cbn.
  rewrite nth_replace_same; [now destruct V'|]. apply nth_error_Some. now rewrite Hn.
Qed.

Lemma step_size o D D' : Inv False D -> legal o D -> step o D = Ok D' -> fresh D <= fresh D'.
Proof. intros I L H. destruct (step_inv False o D D' I L) as (_ & Hle & _); easy. Qed.

Lemma call_wi W i o W' : WI W -> own_nodes i o W -> call i o W = Ok W' -> WI W'.
Proof.
  intros [Hnone Hown Hdoc] (Hs & V & HV & Hl & Hi) H. unfold call in H. rewrite HV in H.
  destruct (step o V) as [V'| |] eqn:Es; cbn [bind] in H; try easy. injection H as <-.
  destruct (Hdoc i V HV) as (f & D & Hh). pose proof Hh as (Hf & Hr & HD & Ho).
  destruct (own_op f D V i (w_owner W) o Hh Hl Hs Hi) as (o0 & Hsim & _ & Hl0).
  pose proof (reachable_inv D Hr) as I. pose proof (step_sim f Hf V o0 o D V I Hl0 HD Hsim) as Hw. rewrite Es in Hw.
  destruct (step o0 D) as [D'| |] eqn:E0; cbn in Hw; [|easy|now destruct (Hw V')].
  destruct Hw as (V1 & [= <-] & H').
  assert (Hr' : reachable D') by now apply (reach_step D o0).
  pose proof (step_size o0 D D' I Hl0 E0) as Hsz. pose proof (fresh_of f D V D' V' _ i Hh H' Hsz) as Hfr.
  pose proof (ds_none f V' D' (ds_base f V D' V' H') (bounded_nothing D' (reachable_bounded D' Hr'))) as Hn'.
  pose proof (view_some W i V HV) as (E1 & E2 & E3 & E4).
  split.
  - now apply (nothing_ext V').
  - intros m Hm. cbn in *. rewrite replace_length. unfold owner_after. destruct (Nat.ltb_spec m (w_fresh W)); [now apply Hown|].
    apply nth_error_Some. now rewrite E4.
  - intros j U HU. destruct (Nat.eq_dec j i) as [->|Hji].
    + rewrite (put_view_same i V W V' HV) in HU. injection HU as <-. exists f, D'.
      split; [easy|]. split; [easy|]. split; [now apply (ds_base f V)|].
      intros m Hm. cbn. unfold owner_after. rewrite <- E3. destruct (Nat.ltb_spec m (fresh V)) as [Hlt|Hge].
      * rewrite (Ho m Hlt). split; intros (n & Hn & E); exists n; (split; [|easy]); [lia|].
        destruct (Nat.lt_ge_cases n (fresh D)) as [|Hd]; [easy|]. pose proof (ds_ge f V D V n HD Hd). lia.
      * split; [intros _|easy]. exists (fresh D + (m - fresh V)). split; [lia|].
        rewrite (ds_fresh f V D V HD). lia.
    + assert (Hold : exists U0, view W j = Some U0 /\ droot U = droot U0 /\ store U = store U0 /\ lk U = lk V' /\ dt U = dt V' /\ fresh U = fresh V').
      { unfold view, put in HU. cbn in HU. rewrite nth_replace_other in HU by congruence. unfold view.
        destruct (nth_error (w_docs W) j) as [[[r s]|]|]; try easy. injection HU as <-. cbn. eexists. now split. }
      destruct Hold as (U0 & HU0 & F1 & F2 & F3 & F4 & F5). destruct (Hdoc j U0 HU0) as (g & E & Hg).
      pose proof (view_some W j U0 HU0) as (G1 & G2 & G3 & _).
      exists (reindex g E U), E. apply (other_doc g E U0 U (w_owner W)); try easy.
      * intros m Hm Em. assert (Hsm : same_at V V' m).
        { apply (frame_of f D V D' V' (w_owner W) i m Hh H'); [congruence|congruence]. }
        unfold same_at in *. rewrite F3, F4, G1, G2, <- E1, <- E2. exact Hsm.
      * intros m Hm. cbn. unfold owner_after. rewrite <- G3. now destruct (Nat.ltb_spec m (fresh U0)); [|lia].
      * intros m Hm. cbn. unfold owner_after. rewrite <- G3. destruct (Nat.ltb_spec m (fresh U0)); [lia|congruence].
      * rewrite F5, Hfr, G3, E3. lia.
      * now apply (nothing_ext V').
Qed.

Lemma drop_loop_above k : forall l D F D', Rep (lk D) F -> (forall n, k <= n -> isolated F n) -> (forall n, In n l -> n < k) ->
  drop_loop l D = Ok D' -> fresh D' = fresh D /\ (exists F', Rep (lk D') F' /\ forall n, k <= n -> isolated F' n) /\
  (forall n, l_root (lk D') n = l_root (lk D) n) /\ (forall n, k <= n -> dt D' n = dt D n).
Proof.
  induction l as [|x l IH]; intros D F D' R Hiso Hl H; cbn [drop_loop] in H.
  - injection H as <-. split; [easy|]. split; [now exists F|easy].
  - cbv zeta in H. ok_bind H L E. set (D1 := modify x _ _) in *.
    pose proof (detach_refines [] x (lk D1) F R) as Hr. destruct (_ || _); [congruence|].
    destruct Hr as (L1 & E1 & R1 & Hroot). rewrite E in E1. injection E1 as <-.
    destruct (IH (with_lk L D1) (f_detach x F) D' R1) as (A & (F' & B) & C & G); [| |exact H|].
    + intros n Hn. now apply iso_detach, Hiso.
    + intros n Hn. apply Hl. now right.
    + split; [exact A|]. split; [now exists F'|]. split.
      * intros n. rewrite C. cbn. now rewrite Hroot.
      * intros n Hn. rewrite (G n Hn). cbn. assert (x < k) by (apply Hl; now left).
        unfold upd. destruct (Nat.eqb_spec n x); [lia|easy].
Qed.
Lemma in_occupied n l : In n (occupied l) -> In (Occupied n) l.
Proof. induction l as [|[m|k] l IH]; cbn; [easy| |auto]. intros [->|H]; auto. Qed.
Lemma drop_above D D' : reachable D -> drop_document D = Ok D' -> fresh D' = fresh D /\ nothing_above D'.
Proof.
  intros Hr H. pose proof (reachable_bounded D Hr) as B. destruct (reachable_inv D Hr) as (F & I & _).
  destruct (drop_loop_above (fresh D) (slab_iter (store D)) D F D' (iv_rep D F I) (iv_iso D F I)) as (A & (F' & R & Hi) & C & G);
    [|exact H|].
  - intros n Hn. apply (bd_store D B). now apply in_occupied.
  - split; [easy|]. intros n Hn. rewrite A in Hn. split.
    + split; [rewrite C; now apply (bd_none D B)|]. apply (iso_none (lk D') F' n R). now apply Hi.
    + rewrite G by easy. now apply (bd_blank D B).
Qed.

Lemma drop_wi W i W' : WI W -> drop_doc i W = Ok W' -> WI W'.
Proof.
  intros [Hnone Hown Hdoc] H. unfold drop_doc in H. destruct (view W i) as [V|] eqn:HV; [|easy].
  destruct (drop_document V) as [V'| |] eqn:Es; cbn [bind] in H; try easy. injection H as <-.
  destruct (Hdoc i V HV) as (f & D & Hh). pose proof Hh as (Hf & Hr & HD & Ho).
  pose proof (drop_document_sim f Hf V D V HD) as Hw. rewrite Es in Hw.
  destruct (drop_document D) as [D'| |] eqn:E0; cbn in Hw; try easy. rename Hw into H'.
  destruct (drop_above D D' Hr E0) as (Hsz & Hab).
  assert (Hfr : fresh V' = fresh V). { rewrite (fresh_of f D V D' V' _ i Hh H') by lia. lia. }
  pose proof (ds_none f V' D' (ds_base f V D' V' H') Hab) as Hn'.
  pose proof (view_some W i V HV) as (E1 & E2 & E3 & E4).
  split.
  - now apply (nothing_ext V').
  - intros m Hm. cbn in *. rewrite replace_length. apply Hown. lia.
  - intros j U HU. destruct (Nat.eq_dec j i) as [->|Hji].
    + exfalso. unfold view in HU. cbn in HU. rewrite nth_replace_same in HU; [easy|]. apply nth_error_Some. now rewrite E4.
    + assert (Hold : exists U0, view W j = Some U0 /\ droot U = droot U0 /\ store U = store U0 /\ lk U = lk V' /\ dt U = dt V' /\ fresh U = fresh V').
      { unfold view in HU. cbn in HU. rewrite nth_replace_other in HU by congruence. unfold view.
        destruct (nth_error (w_docs W) j) as [[[r s]|]|]; try easy. injection HU as <-. cbn. eexists. now split. }
      destruct Hold as (U0 & HU0 & F1 & F2 & F3 & F4 & F5). destruct (Hdoc j U0 HU0) as (g & E & Hg).
      pose proof (view_some W j U0 HU0) as (G1 & G2 & G3 & _).
      exists (reindex g E U), E. apply (other_doc g E U0 U (w_owner W)); try easy.
      * intros m Hm Em. assert (Hsm : same_at V V' m).
        { apply (frame_of f D V D' V' (w_owner W) i m Hh H'); [congruence|congruence]. }
        unfold same_at in *. rewrite F3, F4, G1, G2, <- E1, <- E2. exact Hsm.
      * intros m Hm. exfalso. rewrite F5, Hfr, G3, E3 in Hm. lia.
      * rewrite F5, Hfr, G3, E3. lia.
      * now apply (nothing_ext V').
Qed.

Lemma open_result W W' : open_doc W = Ok W' ->
  W' = mkWorld (w_lk W) (upd (w_dt W) (w_fresh W) (set_key (Some 0) blank)) (S (w_fresh W))
         (w_docs W ++ [Some (w_fresh W, mkSlab [Occupied (w_fresh W)] 1 1)]) (owner_after W (length (w_docs W))).
Proof. unfold open_doc, alloc. cbn. now intros [= <-]. Qed.

Lemma open_wi W W' : WI W -> open_doc W = Ok W' -> WI W'.
Proof.
  intros [Hnone Hown Hdoc] H. apply open_result in H. subst W'. set (k := w_fresh W) in *.
  set (V' := mkDom (w_lk W) (upd (w_dt W) k (set_key (Some 0) blank)) (S k) k (mkSlab [Occupied k] 1 1)).
  assert (Hn' : nothing_above V').
  { intros n Hn. cbn in Hn. destruct (Hnone n) as (A & B); [cbn; unfold k in *; lia|]. split; [exact A|]. cbn in *. unfold upd.
    destruct (Nat.eqb_spec n k); [lia|exact B]. }
  split.
  - exact (nothing_ext V' _ eq_refl eq_refl eq_refl Hn').
  - intros m Hm. cbn in *. rewrite app_length. cbn. unfold owner_after. fold k.
    destruct (Nat.ltb_spec m k) as [Hlt|_]; [specialize (Hown m Hlt)|]; lia.
  - intros j U HU. unfold view in HU. cbn [w_docs w_lk w_dt w_fresh] in HU.
    destruct (Nat.lt_ge_cases j (length (w_docs W))) as [Hj|Hj].
    + rewrite nth_error_app1 in HU by easy.
      assert (Hold : exists U0, view W j = Some U0 /\ droot U = droot U0 /\ store U = store U0 /\ lk U = lk V' /\ dt U = dt V' /\ fresh U = fresh V').
      { unfold view. destruct (nth_error (w_docs W) j) as [[[r s]|]|]; try easy. injection HU as <-. cbn. eexists. now split. }
      destruct Hold as (U0 & HU0 & F1 & F2 & F3 & F4 & F5). destruct (Hdoc j U0 HU0) as (g & E & Hg).
      pose proof (view_some W j U0 HU0) as (G1 & G2 & G3 & _).
      exists (reindex g E U), E. apply (other_doc g E U0 U (w_owner W)); try easy.
      * intros m Hm Em. unfold same_at. rewrite F3, F4, G1, G2. cbn. unfold upd. rewrite G3 in Hm.
        destruct (Nat.eqb_spec m k); [unfold k in *; lia|easy].
      * intros m Hm. cbn. unfold owner_after. rewrite <- G3. now destruct (Nat.ltb_spec m (fresh U0)); [|lia].
      * intros m Hm. cbn. unfold owner_after. rewrite <- G3. destruct (Nat.ltb_spec m (fresh U0)); lia.
      * rewrite F5, G3. cbn. unfold k. lia.
      * now apply (nothing_ext V').
    + rewrite nth_error_app2 in HU by easy.
      destruct (j - length (w_docs W)) as [|q] eqn:Eq; cbn in HU; [|now destruct q]. injection HU as <-.
      assert (j = length (w_docs W)) by lia. subst j. clear Eq Hj. fold V'.
      set (D := mkDom no_links (upd (fun _ => blank) 0 (set_key (Some 0) blank)) 1 0 (mkSlab [Occupied 0] 1 1)).
      exists (fun n => n + k), D.
      split; [intros a b E; lia|]. split; [now apply reach_new|]. split.
      * split.
        -- assert (Hx : forall n, all_none (w_lk W) (n + k)).
           { intros n. apply (Hnone (n + k)). cbn. unfold k. lia. }
           split; (split; [|easy]); intros n; cbn; apply Hx.
        -- split; [|easy]. intros n. cbn. unfold upd. destruct (Nat.eqb_spec (n + k) k), (Nat.eqb_spec n 0); try lia; [easy|].
           destruct (Hnone (n + k)) as (_ & B); [cbn; unfold k; lia|]. cbn in B. now rewrite B.
        -- intros q. cbn. lia.
        -- easy.
        -- now split.
      * intros m Hm. cbn in Hm |- *. unfold owner_after. fold k. destruct (Nat.ltb_spec m k) as [Hlt|Hge].
        -- specialize (Hown m Hlt). split; [lia|]. intros (n & Hn & E). lia.
        -- split; [intros _|easy]. exists 0. split; [lia|]. lia.
Qed.

Theorem wreach_wi W : wreach own_nodes W -> WI W.
Proof.
  induction 1 as [|W W' _ IH H|W i o W' _ IH Ho H|W i W' _ IH H].
  - split.
    + intros n _. now repeat split.
    + cbn. intros; lia.
    + intros i V. unfold view, no_world. cbn. now destruct i.
  - now apply (open_wi W).
  - now apply (call_wi W i o).
  - now apply (drop_wi W i).
Qed.

(* ---- what the properties say *)
Lemma slab_get_sim f s s' k : SS f s s' -> slab_get s' k = option_map f (slab_get s k).
Proof.
  intros (H & _). unfold slab_get. rewrite H, nth_rename. now destruct (nth_error (s_entries s) k) as [[n|m]|].
Qed.
Lemma ds_shows f V0 D V : injective f -> DS f V0 D V -> shows_doc f D V.
Proof.
  intros Hf H. pose proof (ds_lk f V0 D V H) as HL. split.
  - intros a b _ _. apply Hf.
  - intros n Hn. now apply (ds_lt f V0 D).
  - intros n _. rewrite (g_root f V0 _ _ HL), (g_parent f V0 _ _ HL), (g_first f V0 _ _ HL), (g_last f V0 _ _ HL),
      (g_prev f V0 _ _ HL), (g_next f V0 _ _ HL). easy.
  - intros n _. apply (ds_dt f V0 D V H).
  - apply (ds_root f V0 D V H).
  - intros k. apply slab_get_sim, (ds_store f V0 D V H).
Qed.
Lemma hosts_alone W i V f D : hosts f D V (w_owner W) i -> alone W i V f D.
Proof. intros (Hf & Hr & H & Ho). split; [easy|]. split; [now apply (ds_shows f V)|exact Ho]. Qed.

Theorem docs_alone W i V : wreach own_nodes W -> view W i = Some V -> exists f D, alone W i V f D.
Proof.
  intros H HV. destruct (wi_doc W (wreach_wi W H) i V HV) as (f & D & Hh). exists f, D. now apply hosts_alone.
Qed.

Theorem docs_calls W i o V : wreach own_nodes W -> own_nodes i o W -> view W i = Some V ->
  exists f D o0, alone W i V f D /\ legal o0 D /\ renamed_op f o0 o /\
    (forall D', step o0 D = Ok D' -> exists V', step o V = Ok V' /\ shows_doc f D' V') /\
    (forall V', step o V = Ok V' -> exists D', step o0 D = Ok D' /\ shows_doc f D' V') /\
    (forall p, step o0 D = Panic p -> step o V = Panic p).
Proof.
  intros H (Hs & V1 & HV1 & Hl & Hi) HV. rewrite HV in HV1. injection HV1 as <-.
  destruct (wi_doc W (wreach_wi W H) i V HV) as (f & D & Hh). pose proof Hh as (Hf & Hr & HD & Ho).
  destruct (own_op f D V i (w_owner W) o Hh Hl Hs Hi) as (o0 & Hsim & Hren & Hl0).
  pose proof (step_sim f Hf V o0 o D V (reachable_inv D Hr) Hl0 HD Hsim) as Hw.
  exists f, D, o0. split; [now apply hosts_alone|]. split; [easy|]. split; [easy|].
  destruct (step o0 D) as [D'|p|]; cbn in Hw.
  - destruct Hw as (V' & E & H'). split; [|split; [|easy]].
    + intros D1 [= <-]. exists V'. split; [easy|]. now apply (ds_shows f V).
    + intros V1 E1. rewrite E in E1. injection E1 as <-. exists D'. split; [easy|]. now apply (ds_shows f V).
  - split; [easy|]. split; [intros V' E; congruence|]. now intros q [= <-].
  - split; [easy|]. split; [intros V' E; now destruct (Hw V')|easy].
Qed.

Theorem docs_drop W i V : wreach own_nodes W -> view W i = Some V -> exists f D, alone W i V f D /\
  (forall D', drop_document D = Ok D' -> exists V', drop_document V = Ok V' /\ shows_doc f D' V') /\
  (forall V', drop_document V = Ok V' -> exists D', drop_document D = Ok D' /\ shows_doc f D' V') /\
  (forall p, drop_document D = Panic p <-> drop_document V = Panic p).
Proof.
  intros H HV. destruct (wi_doc W (wreach_wi W H) i V HV) as (f & D & Hh). pose proof Hh as (Hf & Hr & HD & Ho).
  exists f, D. split; [now apply hosts_alone|]. pose proof (drop_document_sim f Hf V D V HD) as Hw.
  destruct (drop_document D) as [D'|p|], (drop_document V) as [V'|p'|]; cbn in Hw; try easy.
  - split; [|split; [|easy]].
    + intros D1 [= <-]. exists V'. split; [easy|]. now apply (ds_shows f V).
    + intros V1 [= <-]. exists D'. split; [easy|]. now apply (ds_shows f V).
  - subst p'. easy.
Qed.

Lemma old_view W W' j V lk' dt' fr : nth_error (w_docs W') j = nth_error (w_docs W) j -> w_lk W' = lk' -> w_dt W' = dt' ->
  w_fresh W' = fr -> view W j = Some V -> view W' j = Some (mkDom lk' dt' fr (droot V) (store V)).
Proof.
  intros E <- <- <- HV. apply view_some in HV. destruct HV as (_ & _ & _ & Hn). unfold view. now rewrite E, Hn.
Qed.

Theorem docs_call_apart W i o W' j : wreach own_nodes W -> own_nodes i o W -> call i o W = Ok W' -> j <> i -> untouched W W' j.
Proof.
  intros H (Hs & V & HV & Hl & Hi) Hc Hji U HU. unfold call in Hc. rewrite HV in Hc.
  destruct (step o V) as [V'| |] eqn:Es; cbn [bind] in Hc; try easy. injection Hc as <-.
  destruct (wi_doc W (wreach_wi W H) i V HV) as (f & D & Hh). pose proof Hh as (Hf & Hr & HD & Ho).
  destruct (own_op f D V i (w_owner W) o Hh Hl Hs Hi) as (o0 & Hsim & _ & Hl0).
  pose proof (step_sim f Hf V o0 o D V (reachable_inv D Hr) Hl0 HD Hsim) as Hw. rewrite Es in Hw.
  destruct (step o0 D) as [D'| |] eqn:E0; cbn in Hw; [|easy|now destruct (Hw V')]. destruct Hw as (V1 & [= <-] & H').
  pose proof (view_some W i V HV) as (E1 & E2 & E3 & _). pose proof (view_some W j U HU) as (G1 & G2 & G3 & _).
  eexists. split; [eapply (old_view W (put i V' W) j U); try reflexivity; [|exact HU]; cbn; apply nth_replace_other; congruence|].
  split; [easy|]. split; [easy|]. intros n Hn Hw. unfold exists_node in Hn. split.
  - cbn. unfold owner_after. rewrite <- G3. now destruct (Nat.ltb_spec n (fresh U)); [|lia].
  - assert (Hsm : same_at V V' n).
    { apply (frame_of f D V D' V' (w_owner W) i n Hh H'); [congruence|congruence]. }
    unfold same_at in *. cbn. rewrite G1, G2, <- E1, <- E2. exact Hsm.
Qed.
Theorem docs_drop_apart W i W' j : wreach own_nodes W -> drop_doc i W = Ok W' -> j <> i -> untouched W W' j.
Proof.
  intros H Hc Hji U HU. unfold drop_doc in Hc. destruct (view W i) as [V|] eqn:HV; [|easy].
  destruct (drop_document V) as [V'| |] eqn:Es; cbn [bind] in Hc; try easy. injection Hc as <-.
  destruct (wi_doc W (wreach_wi W H) i V HV) as (f & D & Hh). pose proof Hh as (Hf & Hr & HD & Ho).
  pose proof (drop_document_sim f Hf V D V HD) as Hw. rewrite Es in Hw.
  destruct (drop_document D) as [D'| |] eqn:E0; cbn in Hw; try easy. rename Hw into H'.
  pose proof (view_some W i V HV) as (E1 & E2 & E3 & _). pose proof (view_some W j U HU) as (G1 & G2 & G3 & _).
  eexists. split; [eapply (old_view W (mkWorld (lk V') (dt V') (fresh V') (replace_at i None (w_docs W)) (w_owner W)) j U); try reflexivity; [|exact HU]; cbn; apply nth_replace_other; congruence|].
  split; [easy|]. split; [easy|]. intros n Hn Hw. unfold exists_node in Hn. split; [easy|].
  assert (Hsm : same_at V V' n).
  { apply (frame_of f D V D' V' (w_owner W) i n Hh H'); [congruence|congruence]. }
  unfold same_at in *. cbn. rewrite G1, G2, <- E1, <- E2. exact Hsm.
Qed.
Theorem docs_open_apart W W' j : wreach own_nodes W -> open_doc W = Ok W' -> untouched W W' j.
Proof.
  intros H Hc U HU. apply open_result in Hc. subst W'. pose proof (view_some W j U HU) as (G1 & G2 & G3 & G4).
  eexists. split; [eapply (old_view W _ j U); try reflexivity; [|exact HU]|].
  { cbn. apply nth_error_app1. apply nth_error_Some. now rewrite G4. }
  split; [easy|]. split; [easy|]. intros n Hn Hw. unfold exists_node in Hn. split.
  - cbn. unfold owner_after. rewrite <- G3. now destruct (Nat.ltb_spec n (fresh U)); [|lia].
  - unfold same_at. cbn. rewrite G1, G2. unfold upd. destruct (Nat.eqb_spec n (w_fresh W)); [lia|easy].
Qed.
