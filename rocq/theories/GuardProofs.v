(* Proofs about calls under guards. *)
From Coq Require Import List Bool PeanoNat NArith.
From Verif Require Import Base Ids Links Tree ForestSpec ListFacts TreeProofs TreeSpec TreeApi Data Attrs AttrFacts Slab NodeApi
  AttrSpec Doc DocSpec History InvProofs CopyProofs HistoryProofs LinkProofs ApiProofs Guards GuardSpec GuardTree.
Import ListNotations.

(* ---- guards *)
Lemma held_all g n : held g n <-> In n (all_guards g).
Proof. unfold held, all_guards. rewrite in_app_iff. tauto. Qed.
Lemma writing_held {A} g n (k : res A) : held g n -> writing g n k = Panic PBorrow.
Proof. intros H. unfold writing. apply held_all, mem_In in H. now rewrite H. Qed.
Lemma writing_free {A} g n (k : res A) : ~ held g n -> writing g n k = k.
Proof. intros H. unfold writing. rewrite held_all in H. apply mem_not_In in H. now rewrite H. Qed.
Lemma reading_held {A} g n (k : res A) : held_mut g n -> reading g n k = Panic PBorrow.
Proof. intros H. unfold reading. apply mem_In in H. now rewrite H. Qed.
Lemma reading_free {A} g n (k : res A) : ~ held_mut g n -> reading g n k = k.
Proof. intros H. unfold reading. apply mem_not_In in H. now rewrite H. Qed.
Lemma reading_borrow {A} g n : @reading A g n (Panic PBorrow) = Panic PBorrow.
Proof. unfold reading. now destruct (mem _ _). Qed.
Lemma held_dec g n : {held g n} + {~ held g n}.
Proof.
  destruct (mem n (all_guards g)) eqn:E; [left; now apply held_all, mem_In|right]. rewrite held_all. now apply mem_not_In.
Qed.
Lemma held_mut_dec g n : {held_mut g n} + {~ held_mut g n}.
Proof. apply in_dec, Nat.eq_dec. Qed.
Lemma mut_held g n : held_mut g n -> held g n.
Proof. now right. Qed.
Lemma free_mut g n : ~ held g n -> ~ held_mut g n.
Proof. intros H M. now apply H, mut_held. Qed.

Theorem take_ref_cases g n : (held_mut g n -> take_ref n g = Panic PBorrow) /\
  (~ held_mut g n -> lawful g -> exists g', take_ref n g = Ok g' /\ lawful g' /\
     (forall x, held g' x <-> x = n \/ held g x) /\ forall x, held_mut g' x <-> held_mut g x).
Proof.
  unfold take_ref. split; intros H; [now apply reading_held|]. intros (N & S). rewrite reading_free by exact H.
  eexists. split; [reflexivity|]. unfold lawful, held, held_mut in *. cbn. split; [split; [exact N|]|].
  - intros x Hx [<-|Hx2]; [contradiction|]. now apply (S x).
  - split; intros x; [|tauto]. split; intros [A|A]; intuition auto.
Qed.
Theorem take_mut_cases g n : (held g n -> take_mut n g = Panic PBorrow) /\
  (~ held g n -> lawful g -> exists g', take_mut n g = Ok g' /\ lawful g' /\
     (forall x, held g' x <-> x = n \/ held g x) /\ forall x, held_mut g' x <-> x = n \/ held_mut g x).
Proof.
  unfold take_mut. split; intros H; [now apply writing_held|]. intros (N & S). rewrite writing_free by exact H.
  eexists. split; [reflexivity|]. unfold lawful, held, held_mut in *. cbn. split; [split; [constructor; tauto|]|].
  - intros x [<-|Hx]; [tauto|]. now apply S.
  - split; intros x; [|intuition auto]. split; intuition auto.
Qed.

(* ---- moves *)
Lemma moves_of g own D (f : list nid -> res links) :
  guarded_links (lk D) own (all_guards g) (f []) (f (all_guards g)) ->
  moves_under g own D (L <- f [] ;; Ok (with_lk L D)) (L <- f (all_guards g) ;; Ok (with_lk L D)).
Proof.
  intros (H1 & H2). split.
  - intros q E. destruct (f []) as [L|p|] eqn:Ef; cbn in E; try discriminate. injection E as ->.
    now rewrite (H1 q eq_refl).
  - intros D' E. destruct (f []) as [L|p|] eqn:Ef; cbn in E; try discriminate. injection E as <-.
    destruct (H2 L eq_refl) as (A & B). split.
    + intros H. rewrite A; [easy|]. intros x Hx. apply held_all in Hx. apply (H x Hx).
    + intros (x & Hx & H). rewrite B; [easy|]. exists x. split; [now apply held_all|]. exact H.
Qed.
Lemma reach_rep D : reachable D -> exists F, Rep (lk D) F.
Proof. intros H. destruct (reachable_shows D H) as (F & S). exists F. now apply shows_Rep. Qed.

Theorem g_append_moves g p n D : reachable D -> moves_under g [] D (step (OAppend p n) D) (g_append g p n D).
Proof. intros H. destruct (reach_rep D H) as (F & R). apply (moves_of g [] D (fun G => append G p n (lk D))). now apply append_guarded with (F := F). Qed.
Theorem g_prepend_moves g p n D : reachable D -> moves_under g [] D (step (OPrepend p n) D) (g_prepend g p n D).
Proof. intros H. destruct (reach_rep D H) as (F & R). apply (moves_of g [] D (fun G => prepend G p n (lk D))). now apply prepend_guarded with (F := F). Qed.
Theorem g_insert_after_moves g p n D : reachable D -> moves_under g [] D (step (OInsertAfter p n) D) (g_insert_after g p n D).
Proof. intros H. destruct (reach_rep D H) as (F & R). apply (moves_of g [] D (fun G => insert_after G p n (lk D))). now apply insert_after_guarded with (F := F). Qed.
Theorem g_insert_before_moves g p n D : reachable D -> moves_under g [] D (step (OInsertBefore p n) D) (g_insert_before g p n D).
Proof. intros H. destruct (reach_rep D H) as (F & R). apply (moves_of g [] D (fun G => insert_before G p n (lk D))). now apply insert_before_guarded with (F := F). Qed.
Theorem g_detach_moves g n D : reachable D -> moves_under g [n] D (step (ODetach n) D) (g_detach g n D).
Proof. intros H. destruct (reach_rep D H) as (F & R). apply (moves_of g [n] D (fun G => detach G n (lk D))). now apply detach_guarded with (F := F). Qed.

(* ---- setters *)
Theorem g_set_text_cases g n s D D' : set_text n s D = Ok D' ->
  (held g n -> g_set_text g n s D = Panic PBorrow) /\ (~ held g n -> g_set_text g n s D = Ok D').
Proof.
  unfold set_text, g_set_text. destruct (is_element D n); [discriminate|]. intros [= <-]. split; intros H.
  - rewrite writing_held by exact H. unfold reading. now destruct (mem _ _).
  - rewrite reading_free by now apply free_mut. now rewrite writing_free.
Qed.
Theorem g_set_id_cases g n s D D' : set_id n s D = Ok D' ->
  (held g n -> g_set_id g n s D = Panic PBorrow) /\ (~ held g n -> g_set_id g n s D = Ok D').
Proof.
  unfold set_id, g_set_id. destruct (is_element D n); [|discriminate]. intros [= <-]. split; intros H.
  - rewrite writing_held by exact H. unfold reading. now destruct (mem _ _).
  - rewrite reading_free by now apply free_mut. now rewrite writing_free.
Qed.
Theorem g_set_tag_cases g n t D D' : set_tag_name n t D = Ok D' ->
  (held g n -> g_set_tag_name g n t D = Panic PBorrow) /\ (~ held g n -> g_set_tag_name g n t D = Ok D').
Proof.
  unfold set_tag_name, g_set_tag_name. destruct (negb (is_element D n)); [discriminate|].
  destruct (empty_tag t); [discriminate|]. intros [= <-]. split; intros H.
  - rewrite writing_held by exact H. unfold reading. now destruct (mem _ _).
  - rewrite reading_free by now apply free_mut. now rewrite writing_free.
Qed.

(* ---- attributes *)
Lemma held_add g self n : held (add_ref self g) n <-> n = self \/ held g n.
Proof. unfold held. cbn. intuition auto. Qed.

(* the target of the attribute with this name *)
Definition old_target (D : dom) (self : nid) (name : aname) : option nid :=
  match attrs_get_value (attributes D self) name with Some v => link_target v | None => None end.
Lemma old_target_iff D self name t : LInv D -> old_target D self name = Some t <-> points_to D self name t.
Proof.
  intros H. pose proof (li_uniq D H self) as N. unfold old_target, points_to. split.
  - destruct (attrs_get_value _ _) as [v|] eqn:E; [|discriminate]. intros Ht. apply get_value_spec in E; [|exact N].
    exists (mkAttr name v). split; [exact E|]. now split.
  - intros (a & Ha & <- & Ht). destruct a as [nm v]. cbn [a_name a_value] in *.
    apply get_value_spec in Ha; [|exact N]. now rewrite Ha.
Qed.

Lemma g_remove_cases g self name D D' : has_attribute D self name = true -> remove_attribute self name D = Ok D' ->
  let blocked := held g self \/ exists t, old_target D self name = Some t /\ held g t in
  (blocked -> g_remove_attribute g self name D = Panic PBorrow) /\
  (~ blocked -> g_remove_attribute g self name D = Ok D').
Proof.
  intros Hh H blocked. unfold remove_attribute, g_remove_attribute, blocked, old_target in *. rewrite Hh in *. cbn [negb] in *.
  destruct (attrs_get_value (attributes D self) name) as [v|] eqn:Ev.
  - destruct (link_target v) as [t|] eqn:Et.
    + destruct (position _ _) as [i|] eqn:Ep; [|discriminate]. unfold borrow_mut in H. destruct (mem t [self]) eqn:Em; [discriminate|].
      apply mem_not_In in Em. assert (Hts : t <> self) by (cbn in Em; intuition auto). cbn [bind] in H. injection H as <-. split.
      * intros Hb. destruct (held_dec g t) as [Ht|Ht].
        { assert (Hw : forall k : res dom, writing (add_ref self g) t k = Panic PBorrow) by (intros k; apply writing_held; apply held_add; now right).
          rewrite Hw, reading_borrow. cbn [bind]. apply reading_borrow. }
        assert (Hs : held g self) by (destruct Hb as [|(t' & [= <-] & Ht')]; [easy|contradiction]).
        rewrite writing_free by (rewrite held_add; intuition auto).
        rewrite (reading_free g t) by now apply free_mut. cbn [bind]. rewrite writing_held by exact Hs. apply reading_borrow.
      * intros Hb. assert (Hs : ~ held g self) by tauto. assert (Ht : ~ held g t) by (intros X; apply Hb; right; eauto).
        rewrite !reading_free by now apply free_mut. rewrite (writing_free (add_ref self g)) by (rewrite held_add; intuition auto).
        cbn [bind]. now rewrite writing_free.
    + cbn [bind] in *. injection H as <-. split.
      * intros [Hs|(t & [=] & _)]. rewrite writing_held by exact Hs. unfold reading. now destruct (mem _ _).
      * intros Hb. rewrite reading_free by (apply free_mut; tauto). rewrite writing_free by tauto. easy.
  - cbn [bind] in *. injection H as <-. split.
    + intros [Hs|(t & [=] & _)]. rewrite writing_held by exact Hs. unfold reading. now destruct (mem _ _).
    + intros Hb. rewrite reading_free by (apply free_mut; tauto). rewrite writing_free by tauto. easy.
Qed.
Lemma old_none D self name : has_attribute D self name = false -> old_target D self name = None.
Proof.
  unfold has_attribute, old_target. intros H. apply contains_false in H. apply get_value_none in H. now rewrite H.
Qed.

Theorem g_remove_attribute_cases g self name D : LInv D ->
  (has_attribute D self name = false ->
     (held_mut g self -> g_remove_attribute g self name D = Panic PBorrow) /\
     (~ held_mut g self -> g_remove_attribute g self name D = remove_attribute self name D)) /\
  (has_attribute D self name = true ->
     let blocked := held g self \/ exists t, points_to D self name t /\ held g t in
     (blocked -> g_remove_attribute g self name D = Panic PBorrow) /\
     (~ blocked -> g_remove_attribute g self name D = remove_attribute self name D)).
Proof.
  intros R. split; intros Hh.
  - unfold g_remove_attribute, remove_attribute. rewrite Hh. cbn [negb]. split; intros H; [now apply reading_held|now apply reading_free].
  - destruct (remove_attribute_spec self name D R) as (D' & E & _). rewrite E.
    destruct (g_remove_cases g self name D D' Hh E) as (A & B). split.
    + intros [H|(t & H & Ht)]; apply A; [now left|]. right. exists t. split; [|exact Ht]. now apply old_target_iff.
    + intros H. apply B. intros [Hs|(t & Ho & Ht)]; apply H; [now left|]. right. exists t. split; [|exact Ht]. now apply old_target_iff.
Qed.

(* removing under guards when it may be that there is nothing to remove; [self] is written anyway *)
Lemma g_remove_then {B} g self name D D' (k k0 : dom -> res B) : remove_attribute self name D = Ok D' ->
  (forall E, held g self -> k E = Panic PBorrow) -> (forall E, ~ held g self -> k E = k0 E) ->
  (held g self \/ (exists t, old_target D self name = Some t /\ held g t) -> bind (g_remove_attribute g self name D) k = Panic PBorrow) /\
  (~ held g self -> (forall t, old_target D self name = Some t -> ~ held g t) -> bind (g_remove_attribute g self name D) k = k0 D').
Proof.
  intros H Hk Hf. destruct (has_attribute D self name) eqn:Hh.
  - destruct (g_remove_cases g self name D D' Hh H) as (A & B'). split.
    + intros Hb. now rewrite A.
    + intros Hs Ht. rewrite B'; [cbn; now apply Hf|]. intros [X|(t & Ho & X)]; [contradiction|]. now apply (Ht t).
  - pose proof (old_none D self name Hh) as Ho. unfold remove_attribute in H. rewrite Hh in H. cbn in H. injection H as <-.
    unfold g_remove_attribute. rewrite Hh. cbn [negb]. rewrite Ho. split.
    + intros [Hs|(t & [=] & _)]. unfold reading. destruct (mem _ _); [easy|]. cbn. now apply Hk.
    + intros Hs _. rewrite reading_free by now apply free_mut. cbn. now apply Hf.
Qed.

Lemma g_link_cases g self name node fb D D' : set_link_attribute self name node fb D = Ok (D', ROk) ->
  (held g self \/ held g node \/ (exists t, old_target D self name = Some t /\ held g t) ->
     g_set_link_attribute g self name node fb D = Panic PBorrow) /\
  (~ held g self -> ~ held g node -> (forall t, old_target D self name = Some t -> ~ held g t) ->
     g_set_link_attribute g self name node fb D = Ok (D', ROk)).
Proof.
  unfold set_link_attribute, g_set_link_attribute. intros H.
  destruct (negb (has_id D node)); [discriminate|]. destruct (str_eqb _ _); [discriminate|].
  destruct (existsb _ _); [discriminate|]. destruct (remove_attribute self name D) as [D1| |] eqn:Er; cbn [bind] in H; try discriminate.
  injection H as <-.
  pose proof (g_remove_then g self name D D1
    (fun D => writing g self (let D := modify self (fun d => set_attrs (attrs_insert (d_attrs d) (link_attr name node fb)) d) D in
       writing g node (let D := modify node (fun d => set_linked (d_linked d ++ [self]) d) D in Ok (D, ROk))))
    (fun D => (let D := modify self (fun d => set_attrs (attrs_insert (d_attrs d) (link_attr name node fb)) d) D in
       writing g node (let D := modify node (fun d => set_linked (d_linked d ++ [self]) d) D in Ok (D, ROk)))) Er) as G.
  destruct G as (A & B); [intros E Hs; now apply writing_held|intros E Hs; now apply writing_free|].
  cbv zeta in *. split.
  - intros Hb. destruct (held_dec g self) as [Hs|Hs].
    { rewrite A by now left. now rewrite !reading_borrow. }
    rewrite (reading_free g self) by now apply free_mut.
    assert (forall x : res (dom * result), x = Panic PBorrow -> reading g node x = Panic PBorrow) as Rb by (intros x ->; apply reading_borrow).
    apply Rb. destruct (old_target D self name) as [t|] eqn:Eo; [destruct (held_dec g t) as [Ht|Ht]|].
    + apply A. right. eauto.
    + rewrite B; [|exact Hs|intros t' [= <-]; exact Ht]. apply writing_held.
      destruct Hb as [|[|(t' & [= <-] & Ht')]]; easy.
    + rewrite B; [|exact Hs|discriminate]. apply writing_held. destruct Hb as [|[|(t' & [=] & Ht')]]; easy.
  - intros Hs Hn Ho. rewrite !reading_free by now apply free_mut. rewrite B by auto. now rewrite writing_free.
Qed.
Lemma g_link_err g self name node fb D D' e : set_link_attribute self name node fb D = Ok (D', RErr e) ->
  (held_mut g node -> g_set_link_attribute g self name node fb D = Panic PBorrow) /\
  (~ held_mut g self -> ~ held_mut g node -> g_set_link_attribute g self name node fb D = Ok (D', RErr e)).
Proof.
  unfold set_link_attribute, g_set_link_attribute. intros H. split; [intros Hn; now apply reading_held|].
  intros Hs Hn. rewrite !reading_free by auto. destruct (negb (has_id D node)); [exact H|]. destruct (str_eqb _ _); [exact H|].
  destruct (existsb _ _); [exact H|]. destruct (remove_attribute self name D); discriminate.
Qed.
Lemma g_simple_cases g self a D D' : set_simple_attribute self a D = Ok D' ->
  (held g self \/ (exists t, old_target D self (a_name a) = Some t /\ held g t) -> g_set_simple_attribute g self a D = Panic PBorrow) /\
  (~ held g self -> (forall t, old_target D self (a_name a) = Some t -> ~ held g t) -> g_set_simple_attribute g self a D = Ok D').
Proof.
  unfold set_simple_attribute, g_set_simple_attribute. destruct (is_link_container _); [discriminate|].
  destruct (remove_attribute self (a_name a) D) as [D1| |] eqn:Er; cbn [bind]; try discriminate. intros [= <-].
  apply (g_remove_then g self (a_name a) D D1 _ (fun D => Ok (modify self (fun d => set_attrs (attrs_insert (d_attrs d) a) d) D)) Er).
  - intros E Hs. now apply writing_held.
  - intros E Hs. now apply writing_free.
Qed.

Lemma link_none_cases v : link_target v = None -> (forall n, v <> VLink n) /\ (forall n, v <> VFuncLink n) /\ forall n f, v <> VPaint n f.
Proof. destruct v; try discriminate; intros _; repeat split; discriminate. Qed.

Theorem g_set_checked_cases g self a D : LInv D ->
  (forall q, set_attribute_checked self a D = Panic q -> exists q', g_set_attribute_checked g self a D = Panic q') /\
  (forall D' e, set_attribute_checked self a D = Ok (D', RErr e) ->
     let stopped := held_mut g self \/ exists t, link_target (a_value a) = Some t /\ held_mut g t in
     (stopped -> g_set_attribute_checked g self a D = Panic PBorrow) /\
     (~ stopped -> g_set_attribute_checked g self a D = Ok (D', RErr e))) /\
  (forall D', set_attribute_checked self a D = Ok (D', ROk) ->
     (set_blocked g D self a -> g_set_attribute_checked g self a D = Panic PBorrow) /\
     (~ set_blocked g D self a -> g_set_attribute_checked g self a D = Ok (D', ROk))).
Proof.
  intros R. split; [|split].
  - intros q H. unfold set_attribute_checked in H. unfold g_set_attribute_checked. destruct (negb (is_element D self)).
    { unfold reading. destruct (mem _ _); eauto. }
    exfalso. destruct (remove_attribute_spec self (a_name a) D R) as (D1 & Er & _).
    destruct (a_value a) eqn:Ev; unfold set_link_attribute, set_simple_attribute in H; rewrite ?Ev, Er in H; cbn [bind] in H; try discriminate;
      destruct (negb _); try discriminate; destruct (str_eqb _ _); try discriminate; destruct (existsb _ _); discriminate.
  - intros D' e H stopped. unfold set_attribute_checked in H. unfold g_set_attribute_checked. destruct (negb (is_element D self)); [discriminate|].
    assert (Hl : forall node fb, link_target (a_value a) = Some node -> set_link_attribute self (a_name a) node fb D = Ok (D', RErr e) ->
      (stopped -> reading g self (g_set_link_attribute g self (a_name a) node fb D) = Panic PBorrow) /\
      (~ stopped -> reading g self (g_set_link_attribute g self (a_name a) node fb D) = Ok (D', RErr e))).
    { intros node fb Et Hs. destruct (g_link_err g self _ node fb D D' e Hs) as (A & B). unfold stopped. rewrite Et. split.
      - intros [Hm|(t & [= <-] & Hm)]; [now apply reading_held|]. rewrite A by exact Hm. unfold reading. now destruct (mem _ _).
      - intros Hb. rewrite reading_free by tauto. apply B; [tauto|]. intros X. apply Hb. right. eauto. }
    destruct (a_value a) eqn:Ev; try (apply Hl; [reflexivity|exact H]);
      destruct (set_simple_attribute self a D); discriminate.
  - intros D' H. unfold set_attribute_checked in H. unfold g_set_attribute_checked. destruct (negb (is_element D self)); [discriminate|].
    assert (Ho : forall t, old_target D self (a_name a) = Some t <-> points_to D self (a_name a) t) by (intros t; now apply old_target_iff).
    assert (Hl : forall node fb, link_target (a_value a) = Some node -> set_link_attribute self (a_name a) node fb D = Ok (D', ROk) ->
      (set_blocked g D self a -> reading g self (g_set_link_attribute g self (a_name a) node fb D) = Panic PBorrow) /\
      (~ set_blocked g D self a -> reading g self (g_set_link_attribute g self (a_name a) node fb D) = Ok (D', ROk))).
    { intros node fb Et Hs. destruct (g_link_cases g self _ node fb D D' Hs) as (A & B). unfold set_blocked. rewrite Et. split.
      - intros Hb. rewrite A; [unfold reading; now destruct (mem _ _)|].
        destruct Hb as [Hb|(t & [[= <-]|Hp] & Hb)]; [now left|now right; left|]. right. right. exists t. split; [now apply Ho|exact Hb].
      - intros Hb. assert (Hs' : ~ held g self) by tauto. rewrite reading_free by now apply free_mut. apply B; [exact Hs'| |].
        + intros X. apply Hb. right. exists node. auto.
        + intros t Ht X. apply Hb. right. exists t. split; [right; now apply Ho|exact X]. }
    assert (Hsm : link_target (a_value a) = None -> (D1 <- set_simple_attribute self a D ;; Ok (D1, ROk)) = Ok (D', ROk) ->
      (set_blocked g D self a -> reading g self (D1 <- g_set_simple_attribute g self a D ;; Ok (D1, ROk)) = Panic PBorrow) /\
      (~ set_blocked g D self a -> reading g self (D1 <- g_set_simple_attribute g self a D ;; Ok (D1, ROk)) = Ok (D', ROk))).
    { intros Et Hs. destruct (set_simple_attribute self a D) as [D1| |] eqn:Es; cbn [bind] in Hs; try discriminate. injection Hs as <-.
      destruct (g_simple_cases g self a D D1 Es) as (A & B). unfold set_blocked. rewrite Et. split.
      - intros Hb. rewrite A; [unfold reading; now destruct (mem _ _)|].
        destruct Hb as [Hb|(t & [[=]|Hp] & Hb)]; [now left|]. right. exists t. split; [now apply Ho|exact Hb].
      - intros Hb. assert (Hs' : ~ held g self) by tauto. rewrite reading_free by now apply free_mut. rewrite B; [easy|exact Hs'|].
        intros t Ht X. apply Hb. right. exists t. split; [right; now apply Ho|exact X]. }
    destruct (a_value a) eqn:Ev; try (apply Hl; [reflexivity|exact H]); apply Hsm; try reflexivity; exact H.
Qed.

Theorem g_set_attribute_cases g self a D : LInv D ->
  (forall q, set_attribute self a D = Panic q -> exists q', g_set_attribute g self a D = Panic q') /\
  (forall D', set_attribute self a D = Ok D' ->
     (set_blocked g D self a -> g_set_attribute g self a D = Panic PBorrow) /\
     (~ set_blocked g D self a -> g_set_attribute g self a D = Ok D')).
Proof.
  intros R. destruct (g_set_checked_cases g self a D R) as (A & B & C). unfold set_attribute, g_set_attribute.
  destruct (set_attribute_checked self a D) as [[D1 [|e]]|q|] eqn:E; cbn [bind]; split; try discriminate.
  - intros D' [= <-]. destruct (C D1 eq_refl) as (C1 & C2). split; intros H; [now rewrite C1|now rewrite C2].
  - intros q _. destruct (B D1 e eq_refl) as (B1 & B2).
    destruct (held_mut_dec g self) as [Hs|Hs]; [rewrite B1; [cbn; eauto|now left]|].
    destruct (link_target (a_value a)) as [t|] eqn:Et.
    + destruct (held_mut_dec g t) as [Ht|Ht]; [rewrite B1; [cbn; eauto|]; right; exists t; auto|].
      rewrite B2; [cbn; eauto|]. intros [X|(t' & Et' & X)]; [easy|]. congruence.
    + rewrite B2; [cbn; eauto|]. intros [X|(t' & Et' & X)]; [easy|]. congruence.
  - intros q' _. destruct (A q eq_refl) as (q1 & ->). cbn. eauto.
Qed.
Theorem g_if_none_cases g self a D : LInv D ->
  (has_attribute D self (a_name a) = true ->
     (held_mut g self -> g_set_attribute_if_none g self a D = Panic PBorrow) /\
     (~ held_mut g self -> g_set_attribute_if_none g self a D = set_attribute_if_none self a D)) /\
  (has_attribute D self (a_name a) = false ->
     (forall q, set_attribute_if_none self a D = Panic q -> exists q', g_set_attribute_if_none g self a D = Panic q') /\
     (forall D', set_attribute_if_none self a D = Ok D' ->
        (set_blocked g D self a -> g_set_attribute_if_none g self a D = Panic PBorrow) /\
        (~ set_blocked g D self a -> g_set_attribute_if_none g self a D = Ok D'))).
Proof.
  intros R. unfold set_attribute_if_none, g_set_attribute_if_none. split; intros Hh; rewrite Hh; cbn [negb].
  - split; intros H; [now apply reading_held|now apply reading_free].
  - destruct (g_set_attribute_cases g self a D R) as (A & B). split.
    + intros q H. destruct (A q H) as (q' & ->). unfold reading. destruct (mem _ _); eauto.
    + intros D' H. destruct (B D' H) as (B1 & B2). split; intros X.
      * rewrite B1 by exact X. apply reading_borrow.
      * rewrite reading_free; [now apply B2|]. apply free_mut. intros Y. apply X. now left.
Qed.

(* ---- copies *)
Lemma held_add_mut g self n : held_mut (add_ref self g) n <-> held_mut g n.
Proof. unfold held_mut. cbn. tauto. Qed.
Lemma link_error_new D elem a t : id_of D elem = [] -> linked_nodes D elem = [] -> link_target (a_value a) = Some t ->
  link_error D elem a = if has_id D t then None else Some ElementMustHaveAnId.
Proof.
  intros Hid Hli Et. unfold link_error. rewrite Et. unfold has_id. rewrite Hid, Hli. now destruct (id_of D t).
Qed.
Lemma no_points D self name : ~ In name (map a_name (attributes D self)) -> forall t, ~ points_to D self name t.
Proof. intros H t (a & Ha & <- & _). apply H. now apply in_map. Qed.

Lemma g_copy_attrs_cases g src elem : src <> elem -> ~ held g elem -> forall todo done D,
  LInv D -> is_element D elem = true -> id_of D elem = [] -> linked_nodes D elem = [] ->
  attributes D elem = done -> NoDup (map a_name (done ++ todo)) -> (forall a, In a todo -> stored a = a) ->
  let hit := exists a t, In a todo /\ link_target (a_value a) = Some t /\ held g t in
  (~ hit -> g_copy_attrs (add_ref src g) elem todo D = copy_attrs src elem todo D) /\
  (forall q, copy_attrs src elem todo D = Panic q -> exists q', g_copy_attrs (add_ref src g) elem todo D = Panic q') /\
  (forall D', copy_attrs src elem todo D = Ok D' -> hit -> g_copy_attrs (add_ref src g) elem todo D = Panic PBorrow).
Proof.
  intros Hse Hel. induction todo as [|a todo IH]; intros done D I He Hid Hli Hat Hnd Hsh; cbn [copy_attrs g_copy_attrs].
  { cbn. split; [easy|]. split; [discriminate|]. intros D' _ (a & t & [] & _). }
  assert (Hnin : ~ In (a_name a) (map a_name done)).
  { rewrite map_app in Hnd. cbn in Hnd. apply NoDup_remove_2 in Hnd. rewrite in_app_iff in Hnd. tauto. }
  assert (Hnp : forall t, ~ points_to D elem (a_name a) t) by (apply no_points; now rewrite Hat).
  assert (Hes : ~ held (add_ref src g) elem) by (rewrite held_add; intuition auto).
  destruct (g_set_checked_cases (add_ref src g) elem a D I) as (_ & Cb & Cc).
  pose proof (set_attribute_checked_spec elem a D I He) as Hs.
  (* the step goes through without guards *)
  assert (Hgo : link_error D elem a = None -> (forall t, link_target (a_value a) = Some t -> t <> elem) ->
    exists D1, set_attribute elem a D = Ok D1 /\
      (set_blocked (add_ref src g) D elem a -> g_set_attribute (add_ref src g) elem a D = Panic PBorrow) /\
      (~ set_blocked (add_ref src g) D elem a -> g_set_attribute (add_ref src g) elem a D = Ok D1) /\
      let hit := exists a t, In a todo /\ link_target (a_value a) = Some t /\ held g t in
      (~ hit -> g_copy_attrs (add_ref src g) elem todo D1 = copy_attrs src elem todo D1) /\
      (forall q, copy_attrs src elem todo D1 = Panic q -> exists q', g_copy_attrs (add_ref src g) elem todo D1 = Panic q') /\
      (forall D', copy_attrs src elem todo D1 = Ok D' -> hit -> g_copy_attrs (add_ref src g) elem todo D1 = Panic PBorrow)).
  { intros Hne Hte. rewrite Hne in Hs. destruct Hs as (D1 & E1 & Hf1 & Ha1 & Hl1 & I1). exists D1.
    split; [unfold set_attribute; now rewrite E1|]. destruct (Cc D1 E1) as (C1 & C2).
    split; [intros X; unfold g_set_attribute; now rewrite C1|].
    split; [intros X; unfold g_set_attribute; now rewrite C2|].
    rewrite (Hsh a (or_introl eq_refl)) in Ha1. apply (IH (done ++ [a]) D1).
    - easy.
    - unfold is_element. rewrite (fr_type _ _ Hf1). exact He.
    - rewrite (fr_id _ _ Hf1). exact Hid.
    - rewrite Hl1, named_target_absent by now rewrite Hat. rewrite Hli.
      destruct (link_target (a_value a)) as [t|]; [|easy]. destruct (Nat.eqb_spec elem t) as [<-|]; [|easy].
      exfalso. now apply (Hte elem).
    - rewrite Ha1, Nat.eqb_refl, drop_name_absent; rewrite Hat; easy.
    - now rewrite <- app_assoc.
    - intros b Hb. apply Hsh. now right. }
  assert (Hmore : forall b, In b todo -> In b (a :: todo)) by (intros b; now right).
  destruct (link_target (a_value a)) as [t|] eqn:Et.
  - rewrite (link_error_new D elem a t Hid Hli Et) in *. destruct (has_id D t) eqn:Hi.
    + assert (Hte : t <> elem) by (intros ->; unfold has_id in Hi; now rewrite Hid in Hi).
      destruct Hgo as (D1 & E1 & G1 & G2 & J1 & J2 & J3); [easy|now intros t' [= <-]|].
      destruct (Nat.eqb_spec t src) as [->|Hts]; cbn [andb].
      * assert (Hb : g_set_attribute (add_ref src g) elem a D = Panic PBorrow).
        { apply G1. right. exists src. split; [now left|]. apply held_add. now left. }
        rewrite Hb. cbn [bind]. split; [easy|]. split; [eauto|discriminate].
      * rewrite E1. cbn [bind].
        destruct (held_dec g t) as [Ht|Ht].
        { assert (Hb : g_set_attribute (add_ref src g) elem a D = Panic PBorrow).
          { apply G1. right. exists t. split; [now left|]. apply held_add. now right. }
          rewrite Hb. cbn [bind]. split; [|split; eauto]. intros X. exfalso. apply X. exists a, t. split; [now left|]. now split. }
        assert (Hb : g_set_attribute (add_ref src g) elem a D = Ok D1).
        { apply G2. intros [X|(t' & [X|X] & Y)]; [contradiction| |now apply (Hnp t')].
          rewrite Et in X. injection X as <-. apply held_add in Y. destruct Y; contradiction. }
        rewrite Hb. cbn [bind]. split; [|split; [exact J2|]].
        -- intros X. apply J1. intros (b & u & Hb1 & Hb2). apply X. exists b, u. split; [now right|easy].
        -- intros D' HD (b & u & [<-|Hb1] & Hb2 & Hb3); [rewrite Et in Hb2; injection Hb2 as <-; contradiction|].
           apply (J3 D' HD). exists b, u. auto.
    + rewrite andb_false_r. unfold set_attribute. rewrite Hs. cbn [bind]. destruct (Cb D ElementMustHaveAnId Hs) as (C1 & C2).
      assert (Hem : ~ held_mut (add_ref src g) elem) by now apply free_mut.
      unfold g_set_attribute. destruct (held_mut_dec g t) as [Ht|Ht].
      * rewrite C1 by (right; exists t; split; [easy|now apply held_add_mut]). cbn [bind]. split; [|split; [eauto|discriminate]].
        intros X. exfalso. apply X. exists a, t. split; [now left|]. split; [easy|now apply mut_held].
      * rewrite C2; [cbn [bind]; split; [easy|]; split; [eauto|discriminate]|].
        intros [X|(t' & [= <-] & X)]; [contradiction|]. now apply held_add_mut in X.
  - destruct Hgo as (D1 & E1 & G1 & G2 & J1 & J2 & J3); [unfold link_error; now rewrite Et|discriminate|].
    rewrite E1, G2; [|intros [X|(t' & [X|X] & Y)]; [contradiction|congruence|now apply (Hnp t')]]. cbn [bind].
    split; [|split; [exact J2|]].
    + intros X. apply J1. intros (b & u & Hb1 & Hb2). apply X. exists b, u. split; [now right|easy].
    + intros D' HD (b & u & [<-|Hb1] & Hb2 & Hb3); [rewrite Et in Hb2; discriminate|]. apply (J3 D' HD). exists b, u. auto.
Qed.

Theorem g_copy_node_inv g n D F : InvF D F -> n < fresh D -> (forall x, held g x -> x < fresh D) ->
  let hit := held_mut g n \/ exists a t, node_type D n = NElement /\ In a (attributes D n) /\ link_target (a_value a) = Some t /\ held g t in
  (~ hit -> g_copy_node g n D = copy_node n D) /\
  (forall q, copy_node n D = Panic q -> exists q', g_copy_node g n D = Panic q') /\
  (forall r, copy_node n D = Ok r -> hit -> g_copy_node g n D = Panic PBorrow).
Proof.
  intros I Hn Hg.
  destruct (held_mut_dec g n) as [Hm|Hm].
  { unfold g_copy_node. rewrite reading_held by exact Hm. cbn. split; [tauto|]. eauto. }
  destruct (ntype_eqb (node_type D n) NElement) eqn:Et.
  - apply ntype_eqb_eq in Et. unfold g_copy_node. rewrite reading_free by exact Hm. unfold copy_node. rewrite Et.
    destruct (create_element (tag_name D n) D) as [[m D1]|q|] eqn:Ec; cbn [bind fst snd]; [|cbn; split; [easy|]; split; [eauto|discriminate]|cbn; easy].
    destruct (create_element_inv D F _ _ I Ec) as (Hm1 & I1 & Hlk1 & Hf1 & Hr1 & k & Hd1). cbn [fst snd] in *. subst m.
    assert (Hnew : dt D1 (fresh D) = set_key (Some k) (new_data NElement (tag_name D n) [])).
    { rewrite Hd1. now rewrite Nat.eqb_refl. }
    destruct (g_copy_attrs_cases g n (fresh D)) with (todo := attributes D n) (done := @nil attr) (D := D1) as (A & B & C).
    + intros ->. now apply Nat.lt_irrefl in Hn.
    + intros X. apply Hg in X. now apply Nat.lt_irrefl in X.
    + apply I1.
    + unfold is_element, node_type. now rewrite Hnew.
    + unfold id_of. now rewrite Hnew.
    + unfold linked_nodes. now rewrite Hnew.
    + unfold attributes. now rewrite Hnew.
    + apply (li_uniq D (iv_link D F I)).
    + intros a Ha. now apply (iv_shape D F I n).
    + cbv zeta. split; [|split].
      * intros X. rewrite A; [easy|]. intros (a & t & H). apply X. right. exists a, t. now split.
      * intros q X. destruct (copy_attrs n (fresh D) (attributes D n) D1) as [D2|q2|]; cbn in X; try discriminate.
        destruct (B q2 eq_refl) as (q' & ->). cbn. eauto.
      * intros r X H. destruct (copy_attrs n (fresh D) (attributes D n) D1) as [D2|q2|]; cbn in X; try discriminate.
        rewrite (C D2 eq_refl); [easy|]. destruct H as [|(a & t & _ & H)]; [contradiction|]. eauto.
  - assert (Hne : node_type D n <> NElement) by (intros X; now rewrite X in Et).
    assert (Heq : g_copy_node g n D = copy_node n D).
    { unfold g_copy_node. rewrite reading_free by exact Hm. unfold copy_node. destruct (node_type D n); easy. }
    rewrite Heq. cbv zeta. split; [easy|]. split; [eauto|]. intros r _ [X|(a & t & X & _)]; contradiction.
Qed.
Theorem g_copy_node_cases g n D : reachable D -> n < fresh D -> (forall x, held g x -> x < fresh D) ->
  let hit := held_mut g n \/ exists a t, node_type D n = NElement /\ In a (attributes D n) /\ link_target (a_value a) = Some t /\ held g t in
  (~ hit -> g_copy_node g n D = copy_node n D) /\
  (forall q, copy_node n D = Panic q -> exists q', g_copy_node g n D = Panic q') /\
  (forall r, copy_node n D = Ok r -> hit -> g_copy_node g n D = Panic PBorrow).
Proof. intros R. destruct (reachable_inv D R) as (F & I & _). exact (g_copy_node_inv g n D F I). Qed.
Lemma no_held x : ~ held no_guards x.
Proof. intros [[]|[]]. Qed.
Theorem copy_node_free n D : reachable D -> n < fresh D -> g_copy_node no_guards n D = copy_node n D.
Proof.
  intros R Hn. apply g_copy_node_cases; auto.
  - intros x X. now apply no_held in X.
  - intros [[]|(a & t & _ & _ & _ & X)]. now apply no_held in X.
Qed.

(* ---- statements *)
Lemma same_intro {A} (stop : Prop) (free guarded : res A) :
  (forall q, free = Panic q -> exists q', guarded = Panic q') ->
  (forall r, free = Ok r -> (stop -> guarded = Panic PBorrow) /\ (~ stop -> guarded = Ok r)) -> same_unless stop free guarded.
Proof. now split. Qed.

Lemma reading_panics {A} g n q (k : res A) : k = Panic q -> exists q', reading g n k = Panic q'.
Proof. intros ->. unfold reading. destruct (mem _ _); eauto. Qed.

Theorem set_text_under g n s D : same_unless (held g n) (set_text n s D) (g_set_text g n s D).
Proof.
  split; [|intros D'; apply g_set_text_cases]. intros q H. unfold set_text in H. unfold g_set_text.
  destruct (is_element D n); [|discriminate]. eapply reading_panics. reflexivity.
Qed.
Theorem set_id_under g n s D : same_unless (held g n) (set_id n s D) (g_set_id g n s D).
Proof.
  split; [|intros D'; apply g_set_id_cases]. intros q H. unfold set_id in H. unfold g_set_id.
  destruct (is_element D n); [discriminate|]. eapply reading_panics. reflexivity.
Qed.
Theorem set_tag_under g n t D : same_unless (held g n) (set_tag_name n t D) (g_set_tag_name g n t D).
Proof.
  split; [|intros D'; apply g_set_tag_cases]. intros q H. unfold set_tag_name in H. unfold g_set_tag_name.
  destruct (negb (is_element D n)); [eapply reading_panics; reflexivity|].
  destruct (empty_tag t); [eapply reading_panics; reflexivity|discriminate].
Qed.
Theorem remove_under g self name D : reachable D ->
  (has_attribute D self name = false -> same_unless (held_mut g self) (remove_attribute self name D) (g_remove_attribute g self name D)) /\
  (has_attribute D self name = true -> same_unless (remove_blocked g D self name) (remove_attribute self name D) (g_remove_attribute g self name D)).
Proof.
  intros R. pose proof (reach_linv D R) as I. destruct (remove_attribute_spec self name D I) as (D' & E & _).
  destruct (g_remove_attribute_cases g self name D I) as (A & B). split; intros Hh.
  - destruct (A Hh) as (A1 & A2). rewrite E in *. split; [discriminate|]. intros r [= <-]. now split.
  - destruct (B Hh) as (A1 & A2). rewrite E in *. split; [discriminate|]. intros r [= <-]. now split.
Qed.
Theorem set_under g self a D : reachable D -> same_unless (set_blocked g D self a) (set_attribute self a D) (g_set_attribute g self a D).
Proof. intros R. apply g_set_attribute_cases. now apply reach_linv. Qed.
Theorem if_none_under g self a D : reachable D ->
  (has_attribute D self (a_name a) = true ->
     same_unless (held_mut g self) (set_attribute_if_none self a D) (g_set_attribute_if_none g self a D)) /\
  (has_attribute D self (a_name a) = false ->
     same_unless (set_blocked g D self a) (set_attribute_if_none self a D) (g_set_attribute_if_none g self a D)).
Proof.
  intros R. destruct (g_if_none_cases g self a D (reach_linv D R)) as (A & B). split; intros Hh; [|exact (B Hh)].
  destruct (A Hh) as (A1 & A2). assert (E : set_attribute_if_none self a D = Ok D) by (unfold set_attribute_if_none; now rewrite Hh).
  rewrite E in *. split; [discriminate|]. intros r [= <-]. now split.
Qed.
Theorem checked_under g self a D : reachable D ->
  (refused D self a = None -> same_unless (set_blocked g D self a) (set_attribute_checked self a D) (g_set_attribute_checked g self a D)) /\
  (refused D self a <> None ->
     same_unless (held_mut g self \/ exists t, link_target (a_value a) = Some t /\ held_mut g t)
       (set_attribute_checked self a D) (g_set_attribute_checked g self a D)).
Proof.
  intros R. pose proof (reach_linv D R) as I. destruct (g_set_checked_cases g self a D I) as (A & B & C).
  destruct (is_element D self) eqn:He.
  - pose proof (checked_cases D self a R He) as Hc. destruct (refused D self a) as [e|]; split; try easy; intros _.
    + rewrite Hc in *. split; [discriminate|]. intros r [= <-]. now apply (B D e).
    + destruct Hc as (D' & Hc & _). rewrite Hc in *. split; [discriminate|]. intros r [= <-]. now apply (C D').
  - assert (E : set_attribute_checked self a D = Panic PDebugAssert) by (unfold set_attribute_checked; now rewrite He).
    split; intros _; (split; [exact A|rewrite E; discriminate]).
Qed.
Theorem copy_under g n D : reachable D -> exists_node D n -> (forall x, held g x -> exists_node D x) ->
  same_unless (held_mut g n \/
      node_type D n = NElement /\ exists a t, In a (attributes D n) /\ link_target (a_value a) = Some t /\ held g t)
    (copy_node n D) (g_copy_node g n D).
Proof.
  intros R Hn Hg. destruct (g_copy_node_cases g n D R Hn Hg) as (A & B & C). split; [exact B|]. intros r H. split.
  - intros X. apply (C r H). destruct X as [|(X & a & t & Y)]; [now left|]. right. exists a, t. now split.
  - intros X. rewrite <- H. apply A. intros [Y|(a & t & Z & Y)]; apply X; [now left|]. right. split; [easy|]. eauto.
Qed.

(* ---- without guards *)
Lemma no_reading {A} n (k : res A) : reading no_guards n k = k. Proof. reflexivity. Qed.
Lemma no_writing {A} n (k : res A) : writing no_guards n k = k. Proof. reflexivity. Qed.
Lemma add_ref_writing {A} self n (k : res A) : writing (add_ref self no_guards) n k = if Nat.eqb n self then Panic PBorrow else k.
Proof. unfold writing, all_guards, mem. cbn [add_ref no_guards g_ref g_mut app existsb]. now rewrite orb_false_r. Qed.
Theorem remove_free self name D : g_remove_attribute no_guards self name D = remove_attribute self name D.
Proof.
  unfold g_remove_attribute, remove_attribute. rewrite no_reading. destruct (negb _); [easy|].
  destruct (attrs_get_value _ _) as [v|]; [|easy]. destruct (link_target v) as [t|]; [|easy]. rewrite no_reading.
  destruct (position _ _); [|easy]. rewrite add_ref_writing. unfold borrow_mut, mem. cbn [existsb]. rewrite orb_false_r. destruct (Nat.eqb t self) eqn:E; cbn [bind]; easy.
Qed.
Theorem checked_free self a D : g_set_attribute_checked no_guards self a D = set_attribute_checked self a D.
Proof.
  unfold g_set_attribute_checked, set_attribute_checked, g_set_simple_attribute, g_set_link_attribute, set_simple_attribute, set_link_attribute.
  rewrite no_reading, !remove_free. destruct (negb _); [easy|]. destruct (a_value a); easy.
Qed.
