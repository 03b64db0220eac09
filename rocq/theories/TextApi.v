(* prepare_text in terms of the tree the API shows: text elements, modes, and the effect on each text. *)
From Coq Require Import String List Bool PeanoNat NArith Lia.
From Verif Require Import Base Ids Links Tree Iter ForestSpec TreeSpec ListFacts TreeProofs ForestFacts Data Attrs Slab NodeApi
  Doc DocSpec History InvProofs HistoryProofs TreeApi ApiProofs DocApi Text TextSpec TextFacts Loops AimProofs TextProofs.
Import ListNotations.
Open Scope nat_scope.
Open Scope list_scope.

Section Groups.
Context (D : dom) (F : forest) (W : wf_forest F) (HA : acyclic F) (HT : textual D F).

Definition opens (t : tree) : bool :=
  match t with T n ts => is_element D n && match ts with T c _ :: _ => is_text D c | [] => false end end.

Lemma opens_iff t : tree_at F t -> opens t = true <-> opens_with_text D F (t_node t).
Proof.
  intros Ht. pose proof (tree_at_children F t Ht) as Ec. destruct t as [n ts]. cbn [t_node t_kids] in *.
  unfold opens_with_text. rewrite Ec. cbn [opens]. rewrite andb_true_iff. destruct ts as [|[c cs] ts]; cbn; split.
  - now intros (_ & ?).
  - now intros (_ & c & ? & _).
  - intros (H1 & H2). split; [easy|]. now exists c.
  - intros (H1 & c' & H2 & H3). split; [easy|]. now injection H2 as ->.
Qed.

Lemma groups_eq m n ts : groups D m (T n ts) =
  if opens (T n ts) then [(mode_at D m n, T n ts)]
  else if is_element D n then flat_map (groups D (mode_at D m n)) ts else [].
Proof. cbn [groups opens]. destruct (is_element D n); [|easy]. cbn [andb]. easy. Qed.

Lemma child_of n ts c : tree_at F (T n ts) -> In c ts -> tree_at F c /\ parent_of F (t_node c) = Some n.
Proof.
  intros Ht Hc. inversion Ht as [? ? E Hall]; subst. rewrite Forall_forall in Hall. split; [now apply Hall|].
  apply (wf_child F W). rewrite E. now apply in_map.
Qed.

(* [m] is the mode around the tree [t]. *)
Definition around (m : xmlspace) (t : tree) : Prop := space_mode D F (t_node t) (mode_at D m (t_node t)).

Lemma around_child n ts c m : around m (T n ts) -> tree_at F (T n ts) -> In c ts -> around (mode_at D m n) c.
Proof.
  intros H Ht Hc. destruct (child_of n ts c Ht Hc) as (_ & Hp). unfold around in *. cbn [t_node] in H.
  unfold mode_at at 1. destruct (own_space D (t_node c)) as [o|] eqn:E; [now apply sm_own|].
  now apply (sm_up D F _ n).
Qed.

Lemma groups_sound t : forall m, tree_at F t -> around m t -> forall g, In g (groups D m t) ->
  tree_at F (snd g) /\ opens (snd g) = true /\ space_mode D F (t_node (snd g)) (fst g) /\
  anc_or_self F (t_node t) (t_node (snd g)) /\
  (forall a, anc_or_self F a (t_node (snd g)) -> anc_or_self F (t_node t) a -> a <> t_node (snd g) -> ~ opens_with_text D F a).
Proof.
  induction t as [n ts IH] using tree_ind'. intros m Ht Hm g Hg. rewrite groups_eq in Hg.
  destruct (opens (T n ts)) eqn:Eo.
  - destruct Hg as [<-|[]]. cbn [fst snd t_node]. split; [easy|]. split; [easy|]. split; [exact Hm|]. split; [constructor|].
    intros a H1 H2 H3. exfalso. apply H3. now apply (acyclic_antisym F).
  - destruct (is_element D n); [|easy]. apply in_flat_map in Hg. destruct Hg as (c & Hc & Hg).
    destruct (child_of n ts c Ht Hc) as (Htc & Hp). rewrite Forall_forall in IH.
    destruct (IH c Hc (mode_at D m n) Htc (around_child n ts c m Hm Ht Hc) g Hg) as (G1 & G2 & G3 & G4 & G5).
    split; [easy|]. split; [easy|]. split; [easy|]. cbn [t_node] in *. split.
    + apply (anc_trans F n (t_node c)); [now apply anc_parent|easy].
    + intros a H1 H2 H3. destruct (anc_linear F a (t_node c) (t_node (snd g)) H1 G4) as [H|H].
      * (* a above c *)
        inversion H; subst.
        -- apply G5; [easy|constructor|easy].
        -- assert (p = n) by congruence. subst p. assert (a = n) by now apply (acyclic_antisym F). subst a.
           intros Ho. pose proof (proj2 (opens_iff (T n ts) Ht) Ho). congruence.
      * now apply G5.
Qed.

Lemma sub_at t n : tree_at F t -> In n (preorder t) -> exists u, tree_at F u /\ t_node u = n.
Proof.
  intros _ _. destruct (tree_exists F n W HA) as (u & E & Hu). now exists u.
Qed.

Lemma groups_complete t : forall m e, tree_at F t -> is_element D (t_node t) = true ->
  anc_or_self F (t_node t) e -> opens_with_text D F e ->
  (forall a, anc_or_self F a e -> anc_or_self F (t_node t) a -> a <> e -> ~ opens_with_text D F a) ->
  exists g, In g (groups D m t) /\ t_node (snd g) = e.
Proof.
  induction t as [n ts IH] using tree_ind'. intros m e Ht He Ha Ho Hmin. cbn [t_node] in *. rewrite groups_eq.
  destruct (opens (T n ts)) eqn:Eo.
  - exists (mode_at D m n, T n ts). split; [now left|]. cbn. destruct (Nat.eq_dec n e) as [E|E]; [easy|]. exfalso.
    apply (Hmin n Ha (aos_self F n) E). now apply (opens_iff (T n ts) Ht).
  - rewrite He. destruct (anc_child F n e W Ha) as [->|(c' & Hc' & Hce)].
    { apply (opens_iff (T n ts) Ht) in Ho. congruence. }
    pose proof (tree_at_children F (T n ts) Ht) as Ek. cbn [t_kids t_node] in Ek. rewrite Ek in Hc'. apply in_map_iff in Hc'.
    destruct Hc' as (c & <- & Hc). destruct (child_of n ts c Ht Hc) as (Htc & Hp). rewrite Forall_forall in IH.
    destruct (IH c Hc (mode_at D m n) e Htc) as (g & Hg & Eg); try easy.
    + inversion Hce; subst.
      * apply Ho.
      * destruct (anc_child F (t_node c) e W Hce) as [E|(d & Hd & _)]; [rewrite <- E; apply Ho|].
        destruct (tx_inner D F HT d (t_node c) (wf_child F W _ _ Hd)) as [Hel|Hr]; [easy|].
        rewrite Hr, (tx_top D F HT) in Hp. easy.
    + intros a H1 H2 H3. apply Hmin; [easy| |easy]. apply (anc_trans F n (t_node c)); [now apply anc_parent|easy].
    + exists g. split; [|easy]. apply in_flat_map. now exists c.
Qed.

Lemma texts_iff t n : tree_at F t -> In n (texts D t) <-> is_text D n = true /\ anc_or_self F (t_node t) n.
Proof.
  intros Ht. unfold texts. rewrite filter_In, (preorder_iff F t n W Ht). tauto.
Qed.
End Groups.

(* The effect of prepare_text, text by text. *)
Section Api.
Context (D : dom) (F : forest) (t0 : tree).
Context (HR : reachable_tame D) (HS : shows (lk D) F) (HT : textual D F).
Context (Ht0 : tree_at F t0) (Hr0 : t_node t0 = droot D).

Let HI : InvF D F := shows_inv D F (tame_reachable D HR) HS.
Let HA : acyclic F := shows_acyclic D F (tame_reachable D HR) (tame_acyclic D HR) HS.
Let W : wf_forest F := sh_wf _ _ HS.

Lemma prepare_api : exists D' F', prepare_text D = Ok D' /\ prepared D F t0 D' F'.
Proof. exact (prepare_text_ok D F t0 HI HA HT Ht0 Hr0 (tame_aimed D HR)). Qed.

Lemma root_plain : is_element D (droot D) = false.
Proof. unfold is_element. now rewrite (proj2 (iv_root D F HI (droot D) (iv_rlt D F HI)) eq_refl). Qed.

Lemma kid_around c : In c (t_kids t0) -> is_element D (t_node c) = true -> own_space D (droot D) = None ->
  around D F Default c.
Proof.
  intros Hc He Ho. destruct t0 as [r ts]. cbn [t_node t_kids] in *. subst r.
  destruct (child_of F W (droot D) ts c Ht0 Hc) as (Htc & Hp). unfold around, mode_at.
  destruct (own_space D (t_node c)) as [o|] eqn:E; [now apply sm_own|].
  apply (sm_up D F _ (droot D)); [easy|easy|]. apply sm_top; [easy|]. apply (tx_top D F HT).
Qed.

Lemma root_own : own_space D (droot D) = None.
Proof.
  unfold own_space. destruct (iv_plain D F HI (droot D) root_plain) as (E & _). now rewrite E.
Qed.

Lemma group_iff g : In g (flat_map (groups D Default) (t_kids t0)) ->
  tree_at F (snd g) /\ space_mode D F (t_node (snd g)) (fst g) /\
  forall n, In n (texts D (snd g)) <-> is_text D n = true /\ text_root D F (t_node (snd g)) n.
Proof.
  intros Hg. apply in_flat_map in Hg. destruct Hg as (c & Hc & Hg).
  assert (Hcc : tree_at F c /\ parent_of F (t_node c) = Some (droot D)).
  { destruct t0 as [r ts]. cbn [t_node t_kids] in *. subst r. now apply (child_of F W _ ts). }
  destruct Hcc as (Htc & Hp).
  assert (Hel : is_element D (t_node c) = true).
  { destruct c as [n ts]. cbn [groups t_node] in *. now destruct (is_element D n). }
  destruct (groups_sound D F W HA c Default Htc (kid_around c Hc Hel root_own) g Hg) as (G1 & G2 & G3 & G4 & G5).
  split; [easy|]. split; [easy|]. intros n. rewrite (texts_iff D F W (snd g) n G1).
  apply (opens_iff D F (snd g) G1) in G2. split; [|intros (H1 & (_ & H2 & _)); easy].
  intros (H1 & H2). split; [easy|]. split; [easy|]. split; [easy|]. split.
  - intros E. destruct G2 as (G2 & _). rewrite E in G2. unfold is_element, is_text in *. now destruct (node_type D n).
  - split.
    + apply (anc_trans F _ (t_node c)); [now apply anc_parent|easy].
    + intros a A1 A2. destruct (anc_linear F a (t_node c) _ A1 G4) as [H|H]; [|now apply G5].
      inversion H; subst; [apply G5; [easy|constructor|easy]|].
      assert (p = droot D) by congruence. subst p.
      inversion H3; subst.
      * intros (Ho & _). rewrite root_plain in Ho. easy.
      * rewrite (tx_top D F HT) in H4. easy.
Qed.

Lemma group_of e n : is_text D n = true -> text_root D F e n ->
  exists g, In g (flat_map (groups D Default) (t_kids t0)) /\ t_node (snd g) = e /\ In n (texts D (snd g)).
Proof.
  intros Hn (H1 & H2 & H3 & H4 & H5).
  destruct (anc_child F (droot D) e W H4) as [->|(c' & Hc' & Hce)].
  { destruct H1 as (H1 & _). rewrite root_plain in H1. easy. }
  pose proof Hc' as Hp. apply (wf_child F W) in Hp.
  rewrite <- Hr0, (tree_at_children F t0 Ht0) in Hc'. apply in_map_iff in Hc'. destruct Hc' as (c & <- & Hc).
  assert (Htc : tree_at F c).
  { destruct t0 as [r ts]. cbn [t_kids] in Hc. now destruct (child_of F W r ts c Ht0 Hc). }
  destruct (groups_complete D F W HT c Default e Htc) as (g & Hg & Eg); try easy.
  - destruct (anc_child F (t_node c) e W Hce) as [E|(d & Hd & _)]; [rewrite <- E; apply H1|].
    destruct (tx_inner D F HT d (t_node c) (wf_child F W _ _ Hd)) as [Hel|Hr]; [easy|].
    rewrite Hr, (tx_top D F HT) in Hp. easy.
  - intros a A1 A2 A3. now apply H5.
  - assert (Hgg : In g (flat_map (groups D Default) (t_kids t0))) by (apply in_flat_map; now exists c).
    exists g. split; [easy|]. split; [easy|]. apply (group_iff g Hgg). rewrite Eg. now split.
Qed.

Lemma mode_unique n m : space_mode D F n m -> forall m', space_mode D F n m' -> m = m'.
Proof.
  induction 1 as [n m E|n p m E Ep _ IH|n E Ep]; intros m' H'; inversion H'; subst; try congruence.
  apply IH. now assert (p = p0) as <- by congruence.
Qed.

(* everything at once *)
Record text_effect (D' : dom) (F' : forest) : Prop := {
  te_shows : shows (lk D') F';
  te_root  : droot D' = droot D;
  te_type  : forall n, node_type D' n = node_type D n;
  te_tag   : forall n, tag_name D' n = tag_name D n;
  te_id    : forall n, id_of D' n = id_of D n;
  te_attrs : forall n, attributes D' n = attributes D n;
  te_plain : forall n, is_text D n = false -> text_of D' n = text_of D n;
  te_tree  : tree_at F' (drained (fun n => is_text D n && is_empty (text_of D' n)) t0);
  te_group : forall e t m, t_node t = e -> tree_at F t -> (exists n, is_text D n = true /\ text_root D F e n) ->
               space_mode D F e m -> group_effect D F m t (text_of D) (text_of D');
  te_other : forall n, (forall e, ~ text_root D F e n) -> text_of D' n = text_of D n
}.

Lemma prepare_effect : exists D' F', prepare_text D = Ok D' /\ text_effect D' F' /\
  calls (fun o D' => (forall x, In x (preorder t0) -> storage_key D x <> None) -> orderly o D') D D'.
Proof.
  destruct prepare_api as (D' & F' & E & P). exists D', F'. split; [easy|]. destruct P as [P1 P2 P3 P4 P5 P6 P7 P8 P9 (E1 & E2) P11 P12].
  split; [|exact P12]. split; try easy.
  - apply shows_Rep, (iv_rep _ _ P1).
  - intros e t m <- Ht (n & Hn & Hr) Hm. destruct (group_of _ n Hn Hr) as (g & Hg & Eg & _).
    destruct (group_iff g Hg) as (G1 & G2 & _). rewrite Eg in G2.
    assert (fst g = m) as <- by now apply (mode_unique (t_node t)).
    assert (snd g = t) as <- by now apply (tree_at_unique F). now apply E1.
  - intros n Hn. apply E2. intros g Hg Hi. apply (group_iff g Hg) in Hi. now apply (Hn (t_node (snd g))).
Qed.

Lemma text_no_own n : is_text D n = true -> own_space D n = None.
Proof.
  intros H. unfold own_space. assert (E : is_element D n = false) by (unfold is_text, is_element in *; now destruct (node_type D n)).
  destruct (iv_plain D F HI n E) as (-> & _). reflexivity.
Qed.

(* the mode of a text *)
Lemma mode_found e n m me : is_text D n = true -> text_root D F e n -> direct D F e n -> space_mode D F n m ->
  space_mode D F e me -> tmode D F me n = m.
Proof.
  intros Hn (_ & Ha & Hne & _) Hd Hm Hme. inversion Ha as [|a' n' p Hp Hap]; subst; [easy|].
  inversion Hm as [? ? E|? q ? E Eq Hq|? E E2]; subst; [|assert (q = p) by congruence; subst q|congruence].
  { rewrite (text_no_own n Hn) in E. easy. }
  unfold tmode. rewrite Hp. unfold mode_at. destruct (own_space D p) as [o|] eqn:Eo.
  - apply (mode_unique p o (sm_own D F p o Eo) m Hq).
  - specialize (Hd p Hp Eo). clear Hp Eo Hm E Eq Hn Ha Hne.
    induction Hap as [|a q r Hr Har IH]; [exact (mode_unique _ _ Hme _ Hq)|].
    destruct (Nat.eq_dec q a) as [->|Hqa]; [exact (mode_unique _ _ Hme _ Hq)|].
    assert (Eo : own_space D q = None). { apply Hd; [eapply aos_up; eauto|constructor|easy]. }
    inversion Hq as [? ? E|? q' ? E Eq Hq'|? E E2]; subst; [congruence| |congruence].
    assert (q' = r) by congruence. subst q'. apply IH; try easy. intros b B1 B2 B3. apply Hd; try easy. eapply aos_up; eauto.
Qed.

Lemma rooted_or_not n : is_text D n = true ->
  (exists g, In g (flat_map (groups D Default) (t_kids t0)) /\ In n (texts D (snd g))) \/ (forall e, ~ text_root D F e n).
Proof.
  intros Hn.
  destruct (existsb (fun g => mem n (texts D (snd g))) (flat_map (groups D Default) (t_kids t0))) eqn:E.
  - left. apply existsb_exists in E. destruct E as (g & Hg & Hi). exists g. split; [easy|]. now apply mem_In.
  - right. intros e Hr. destruct (group_of e n Hn Hr) as (g & Hg & _ & Hi).
    assert (X : existsb (fun g => mem n (texts D (snd g))) (flat_map (groups D Default) (t_kids t0)) = true).
    { apply existsb_exists. exists g. split; [easy|]. now apply mem_In. }
    congruence.
Qed.

(* what becomes of every text *)
Lemma effect_text D' F' n : text_effect D' F' -> is_text D n = true ->
  (exists e m t, text_root D F e n /\ space_mode D F e m /\ tree_at F t /\ t_node t = e /\
     group_effect D F m t (text_of D) (text_of D') /\ In n (texts D t)) \/
  (forall e, ~ text_root D F e n) /\ text_of D' n = text_of D n.
Proof.
  intros E Hn.
  destruct (rooted_or_not n Hn) as [(g & Hg & Hi)|Hno].
  - left. destruct (group_iff g Hg) as (G1 & G2 & G3). exists (t_node (snd g)), (fst g), (snd g).
    pose proof (proj1 (G3 n) Hi) as (_ & Hr). split; [easy|]. split; [easy|]. split; [easy|]. split; [easy|]. split; [|easy].
    apply (te_group D' F' E (t_node (snd g))); try easy. now exists n.
  - right. split; [exact Hno|]. now apply (te_other D' F' E).
Qed.
End Api.

(* ---- the statements used for the properties *)
Section Statements.
Context (D : dom) (F : forest) (HR : reachable_tame D) (HS : shows (lk D) F) (HT : textual D F).

Lemma some_tree : exists t0, tree_at F t0 /\ t_node t0 = droot D.
Proof.
  destruct (tree_exists F (droot D) (sh_wf _ _ HS)) as (t & E & Ht).
  - exact (shows_acyclic D F (tame_reachable D HR) (tame_acyclic D HR) HS).
  - now exists t.
Qed.

Lemma white_text t0 D' F' : tree_at F t0 -> t_node t0 = droot D -> text_effect D F t0 D' F' ->
  forall n, whitened (text_of D n) (text_of D' n).
Proof.
  intros Ht0 Hr0 E n. destruct (is_text D n) eqn:Hn; [|rewrite (te_plain _ _ _ _ _ E n Hn); apply whitened_refl].
  destruct (effect_text D F t0 HR HS HT Ht0 Hr0 D' F' n E Hn) as [(e & m & t & _ & _ & _ & _ & G & Hi)|(_ & ->)].
  - eapply whitened_trans; [apply (whitened_trim (text_of D n) (tmode D F m n))|]. rewrite trim_clean.
    apply whitened_shortened. now apply (ge_each _ _ _ _ _ _ G).
  - apply whitened_refl.
Qed.

Theorem text_white_only : exists D' F', prepare_text D = Ok D' /\ shows (lk D') F' /\
  (forall n, whitened (text_of D n) (text_of D' n)) /\
  (forall n, is_text D n = false -> text_of D' n = text_of D n) /\
  (forall t, tree_at F t -> t_node t = droot D ->
     tree_at F' (drained (fun n => is_text D n && is_empty (text_of D' n)) t)).
Proof.
  destruct some_tree as (t0 & Ht0 & Hr0).
  destruct (prepare_effect D F t0 HR HS HT Ht0 Hr0) as (D' & F' & E & P & _). exists D', F'. split; [easy|].
  split; [apply P|]. split; [now apply (white_text t0 D' F')|]. split; [apply P|].
  intros t Ht Hr. assert (t = t0) as -> by (apply (tree_at_unique F); [easy|easy|congruence]). apply P.
Qed.

Context (D' : dom) (E : prepare_text D = Ok D').

Lemma effect_of : exists t0 F', tree_at F t0 /\ t_node t0 = droot D /\ text_effect D F t0 D' F' /\
  calls (fun o D' => (forall x, In x (preorder t0) -> storage_key D x <> None) -> orderly o D') D D'.
Proof.
  destruct some_tree as (t0 & Ht0 & Hr0).
  destruct (prepare_effect D F t0 HR HS HT Ht0 Hr0) as (D1 & F' & E1 & P & C).
  assert (D1 = D') as -> by congruence. exists t0, F'. now split.
Qed.

Theorem text_attributes : (forall n, attributes D' n = attributes D n) /\
  (forall n, node_type D' n = node_type D n /\ tag_name D' n = tag_name D n /\ id_of D' n = id_of D n).
Proof.
  destruct effect_of as (t0 & F' & Ht0 & Hr0 & P & _). destruct P. split; [easy|]. intros n. now rewrite te_type0, te_tag0, te_id0.
Qed.

Theorem text_reachable : reachable_tame D' /\ (reachable_leafy D -> reachable_leafy D').
Proof.
  destruct effect_of as (t0 & F' & _ & _ & _ & C). split.
  - eapply calls_tame; [exact C|exact HR].
  - now apply (calls_leafy _ D D' C).
Qed.

Lemma group_at e n m t : is_text D n = true -> text_root D F e n -> space_mode D F e m -> tree_at F t -> t_node t = e ->
  group_effect D F m t (text_of D) (text_of D').
Proof.
  intros Hn Hr Hm Ht He. destruct effect_of as (t0 & F' & Ht0 & Hr0 & P & _).
  apply (te_group _ _ _ _ _ P e); try easy. now exists n.
Qed.

Lemma texts_of e n t : is_text D n = true -> text_root D F e n -> tree_at F t -> t_node t = e -> In n (texts D t).
Proof.
  intros Hn (_ & Ha & _) Ht <-. apply (texts_iff D F (sh_wf _ _ HS) t n Ht). now split.
Qed.

Theorem text_single e n t m : text_root D F e n -> tree_at F t -> t_node t = e -> texts D t = [n] -> space_mode D F e m ->
  match m with
  | Default => text_of D' n = normal (text_of D n) /\
      no_lead (text_of D' n) /\ no_trail (text_of D' n) /\ no_double (text_of D' n)
  | Preserve => text_of D' n = spaced (text_of D n) /\ length (text_of D' n) = length (text_of D n)
  end.
Proof.
  intros Hr Ht He Hone Hm.
  assert (Hn : is_text D n = true).
  { assert (Hi : In n (texts D t)) by (rewrite Hone; now left). unfold texts in Hi. now apply filter_In in Hi. }
  pose proof (ge_one _ _ _ _ _ _ (group_at e n m t Hn Hr Hm Ht He) n Hone) as X. destruct m; rewrite X.
  - pose proof (normal_clean (text_of D n)). tauto.
  - split; [easy|]. unfold spaced. apply map_length.
Qed.

Theorem text_joined e t : (exists n, is_text D n = true /\ text_root D F e n) -> tree_at F t -> t_node t = e ->
  (forall n, In n (texts D t) -> space_mode D F n Default /\ direct D F e n /\ inked (text_of D n)) ->
  (forall a b, texts D t = [a; b] -> no_lead (spaced (text_of D a)) \/ no_trail (spaced (text_of D b))) ->
  all_text (text_of D') (texts D t) = normal (all_text (text_of D) (texts D t)).
Proof.
  intros (n & Hn & Hr) Ht He Hall Hedge.
  destruct effect_of as (t0 & F' & Ht0 & Hr0 & _).
  destruct (group_of D F t0 HR HS HT Ht0 Hr0 e n Hn Hr) as (g & Hg & Eg & Hi).
  destruct (group_iff D F t0 HR HS HT Ht0 Hr0 g Hg) as (G1 & G2 & G3). rewrite Eg in *.
  pose proof (group_at e n (fst g) t Hn Hr G2 Ht He) as G.
  assert (snd g = t) as Est by (apply (tree_at_unique F); congruence). rewrite Est in *.
  assert (Hmode : forall x, In x (texts D t) -> tmode D F (fst g) x = Default).
  { intros x Hx. destruct (proj1 (G3 x) Hx) as (X1 & X2). destruct (Hall x Hx) as (Y1 & Y2 & _).
    now apply (mode_found D F HR HS e). }
  destruct (texts D t) as [|a [|b l]] eqn:El.
  - easy.
  - pose proof (ge_one _ _ _ _ _ _ G a El) as X.
    assert (Hm : fst g = Default).
    { destruct (Hall a (or_introl eq_refl)) as (Y1 & Y2 & _).
      destruct (proj1 (G3 a) (or_introl eq_refl)) as (X1 & X2).
      (* the only text is the first child of the element *)
      destruct X2 as ((_ & c & Hc & Hct) & _).
      assert (Hpc : parent_of F c = Some e).
      { apply (wf_child F (sh_wf _ _ HS)). destruct (children_of F e); [easy|]. injection Hc as ->. now left. }
      assert (Hca : In c (texts D t)) by (apply (texts_iff D F (sh_wf _ _ HS) t c Ht); split; [easy|]; rewrite He; now apply anc_parent).
      rewrite El in Hca. destruct Hca as [<-|[]].
      clear Est. inversion Y1 as [? ? Eo|? q ? Eo Eq Hq|? Eo Eq]; subst; [|assert (q = t_node t) by congruence; subst q|congruence].
      - rewrite (text_no_own D F HR HS a Hct) in Eo. easy.
      - now apply (mode_unique D F (t_node t)). }
    rewrite Hm in X. unfold all_text. cbn [map concat]. rewrite !app_nil_r. exact X.
  - rewrite <- El in *. apply (ge_many _ _ _ _ _ _ G a b l El).
    + intros x Hx. split; [now apply Hmode|]. now apply Hall.
    + intros ->. now apply Hedge.
Qed.

Theorem text_exact e t a b l : (exists n, is_text D n = true /\ text_root D F e n) -> tree_at F t -> t_node t = e ->
  texts D t = a :: b :: l ->
  (forall n, In n (texts D t) -> space_mode D F n Default /\ direct D F e n /\ text_of D n <> []) ->
  (forall l1 x y l2, texts D t = l1 ++ x :: y :: l2 -> inked (text_of D y) \/ visible (text_of D x)) ->
  (all_text (text_of D') (texts D t) = normal (all_text (text_of D) (texts D t)) <->
   ~ (~ inked (text_of D a) /\ lead_white (text_of D b) /\ parent_of F b = Some e) /\
   ~ (l = [] /\ lead_white (text_of D a) /\ trail_white (text_of D b) /\
      ~ (inked (text_of D a) /\ trail_white (text_of D a) /\ ~ inked (text_of D b) /\ parent_of F b <> Some e))).
Proof.
  intros (n & Hn & Hr) Ht He El Hall Hadj.
  destruct effect_of as (t0 & F' & Ht0 & Hr0 & _).
  destruct (group_of D F t0 HR HS HT Ht0 Hr0 e n Hn Hr) as (g & Hg & Eg & Hi).
  destruct (group_iff D F t0 HR HS HT Ht0 Hr0 g Hg) as (G1 & G2 & G3). rewrite Eg in *.
  pose proof (group_at e n (fst g) t Hn Hr G2 Ht He) as G.
  assert (snd g = t) as Est by (apply (tree_at_unique F); congruence). rewrite Est in *.
  rewrite <- He. apply (ge_exact _ _ _ _ _ _ G a b l El); [|exact Hadj].
  intros x Hx. destruct (proj1 (G3 x) Hx) as (X1 & X2). destruct (Hall x Hx) as (Y1 & Y2 & Y3).
  split; [now apply (mode_found D F HR HS e)|exact Y3].
Qed.

Theorem text_no_breaks n : is_text D n = true ->
  (exists e, text_root D F e n) /\ (forall c, In c (text_of D' n) -> c <> 9%N /\ c <> 10%N /\ c <> 13%N) \/
  (forall e, ~ text_root D F e n) /\ text_of D' n = text_of D n.
Proof.
  intros Hn. destruct effect_of as (t0 & F' & Ht0 & Hr0 & P & _).
  destruct (effect_text D F t0 HR HS HT Ht0 Hr0 D' F' n P Hn) as [(e & m & t & Hr & _ & _ & _ & G & Hi)|H]; [left|now right].
  split; [now exists e|]. destruct (ge_each _ _ _ _ _ _ G n Hi) as (a & b & Eab & _). intros c Hc.
  assert (Hc' : In c (clean (tmode D F m n) (text_of D n))) by (rewrite Eab; apply in_app_iff; right; apply in_app_iff; now left).
  assert (Hc2 : In c (spaced (text_of D n))).
  { destruct (tmode D F m n); [|exact Hc']. cbn [clean] in Hc'. revert Hc'. generalize (spaced (text_of D n)). intros s.
    induction s as [|x s IH]; [easy|]. destruct s as [|y s]; [easy|]. rewrite collapse_cons.
    destruct ((x =? 32)%N && (y =? 32)%N); [intros; right; now apply IH|]. intros [->|H]; [now left|right; now apply IH]. }
  unfold spaced in Hc2. apply in_map_iff in Hc2. destruct Hc2 as (x & Ex & _). unfold white in Ex.
  destruct (N.eqb_spec x 32), (N.eqb_spec x 9), (N.eqb_spec x 10), (N.eqb_spec x 13); cbn in Ex; subst; easy.
Qed.

Theorem text_mode e n m : is_text D n = true -> text_root D F e n -> direct D F e n -> space_mode D F n m ->
  shortened (clean m (text_of D n)) (text_of D' n).
Proof.
  intros Hn Hr Hd Hm. destruct effect_of as (t0 & F' & Ht0 & Hr0 & P & _).
  destruct (group_of D F t0 HR HS HT Ht0 Hr0 e n Hn Hr) as (g & Hg & Eg & Hi).
  destruct (group_iff D F t0 HR HS HT Ht0 Hr0 g Hg) as (G1 & G2 & G3). rewrite Eg in G2.
  rewrite <- (mode_found D F HR HS e n m (fst g) Hn Hr Hd Hm G2).
  apply (ge_each _ _ _ _ _ _ (group_at e n (fst g) (snd g) Hn Hr G2 G1 Eg) n Hi).
Qed.

Theorem text_kept e n t l z : is_text D n = true -> text_root D F e n -> direct D F e n -> space_mode D F n Preserve ->
  tree_at F t -> t_node t = e -> texts D t = l ++ [z] -> inked (text_of D z) -> text_of D' n = spaced (text_of D n).
Proof.
  intros Hn Hr Hd Hm Ht He Hl Hz. destruct effect_of as (t0 & F' & Ht0 & Hr0 & P & _).
  destruct (group_of D F t0 HR HS HT Ht0 Hr0 e n Hn Hr) as (g & Hg & Eg & Hi).
  destruct (group_iff D F t0 HR HS HT Ht0 Hr0 g Hg) as (G1 & G2 & G3). rewrite Eg in G2.
  apply (ge_keep _ _ _ _ _ _ (group_at e n (fst g) t Hn Hr G2 Ht He) n z l Hl); [now apply (texts_of e)| |now left].
  now apply (mode_found D F HR HS e).
Qed.
End Statements.
