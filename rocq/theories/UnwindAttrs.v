(* Proofs about attributes after a panic that was caught. *)
From Coq Require Import List Bool PeanoNat NArith Lia.
From Verif Require Import Base Ids Links Tree ForestSpec ListFacts TreeProofs TreeSpec TreeApi Data Attrs AttrFacts Slab NodeApi
  AttrSpec Doc DocSpec History InvProofs CopyProofs HistoryProofs LinkProofs ApiProofs Guards GuardSpec GuardTree GuardProofs
  Unwind UnwindSpec UnwindTree.
Import ListNotations.

(* ---- the outcome for a user who does not catch panics *)
Lemma unc_seq_ {S A} (o : S * fate unit) (k : S -> S * fate A) :
  uncaught (s <~ o ;; k s) = (s <- uncaught_ o ;; uncaught (k s)).
Proof. now destruct o as [s [a|p]]. Qed.
Lemma unc__seq_ {S} (o : S * fate unit) (k : S -> S * fate unit) :
  uncaught_ (s <~ o ;; k s) = (s <- uncaught_ o ;; uncaught_ (k s)).
Proof. now destruct o as [s [a|p]]. Qed.

Lemma unc_remove_attribute g self name D : uncaught_ (u_remove_attribute g self name D) = g_remove_attribute g self name D.
Proof.
  unfold u_remove_attribute, g_remove_attribute, u_reading, reading, u_writing, writing.
  destruct (mem self (g_mut g)); [easy|]. destruct (negb _); [easy|].
  destruct (attrs_get_value _ _) as [v|]; [destruct (link_target v) as [t|]|].
  - destruct (mem t (g_mut g)); [easy|]. destruct (position _ _); [|easy]. destruct (mem t _); [easy|]. cbn.
    now destruct (mem self _).
  - cbn. now destruct (mem self _).
  - cbn. now destruct (mem self _).
Qed.
Lemma unc_simple g self a D : uncaught_ (u_set_simple_attribute g self a D) = g_set_simple_attribute g self a D.
Proof.
  unfold u_set_simple_attribute, g_set_simple_attribute. destruct (is_link_container _); [easy|].
  rewrite unc__seq_, unc_remove_attribute. destruct (g_remove_attribute _ _ _ _); [|easy|easy]. cbn.
  unfold u_writing, writing. now destruct (mem _ _).
Qed.
Lemma unc_link g self name node fb D : uncaught (u_set_link_attribute g self name node fb D) = g_set_link_attribute g self name node fb D.
Proof.
  unfold u_set_link_attribute, g_set_link_attribute, u_reading, reading. destruct (mem node _); [easy|].
  destruct (negb _); [easy|]. destruct (mem self _); [easy|]. destruct (str_eqb _ _); [easy|]. destruct (existsb _ _); [easy|].
  rewrite unc_seq_, unc_remove_attribute. destruct (g_remove_attribute _ _ _ _); [|easy|easy]. cbn.
  unfold u_writing, writing. destruct (mem self _); [easy|]. now destruct (mem node _).
Qed.
Lemma unc_checked g self a D : uncaught (u_set_attribute_checked g self a D) = g_set_attribute_checked g self a D.
Proof.
  unfold u_set_attribute_checked, g_set_attribute_checked, u_reading, reading. destruct (mem self _); [easy|].
  destruct (negb _); [easy|].
  destruct (a_value a); try apply unc_link; rewrite unc_seq_, unc_simple; now destruct (g_set_simple_attribute _ _ _ _).
Qed.
Lemma unc_set_attribute g self a D : uncaught_ (u_set_attribute g self a D) = g_set_attribute g self a D.
Proof.
  unfold u_set_attribute, g_set_attribute. rewrite <- unc_checked.
  now destruct (u_set_attribute_checked g self a D) as [D1 [[|e]|p]].
Qed.
Lemma unc_if_none g self a D : uncaught_ (u_set_attribute_if_none g self a D) = g_set_attribute_if_none g self a D.
Proof.
  unfold u_set_attribute_if_none, g_set_attribute_if_none, u_reading, reading. destruct (mem self _); [easy|].
  destruct (negb _); [apply unc_set_attribute|easy].
Qed.
Lemma unc_copy_attrs g elem l : forall D, uncaught_ (u_copy_attrs g elem l D) = g_copy_attrs g elem l D.
Proof.
  induction l as [|a l IH]; intros D; [easy|]. cbn [u_copy_attrs g_copy_attrs]. rewrite unc__seq_, unc_set_attribute.
  destruct (g_set_attribute _ _ _ _); [|easy|easy]. apply IH.
Qed.
Lemma unc_create r D : r <> Diverge -> uncaught (u_create r D) = (x <- r ;; Ok (snd x, fst x)).
Proof. intros H. now destruct r as [[n D1]|p|]. Qed.
Lemma alloc_ends d D : alloc d D <> Diverge.
Proof.
  unfold alloc, slab_insert. destruct (Nat.eqb _ _); [easy|]. now destruct (nth_error _ _) as [[n|n]|].
Qed.
Lemma create_element_ends t D : create_element t D <> Diverge.
Proof. unfold create_element. destruct (empty_tag t); [easy|apply alloc_ends]. Qed.
Lemma create_node_ends t x D : create_node t x D <> Diverge.
Proof. unfold create_node. destruct (_ || _); [easy|apply alloc_ends]. Qed.
Lemma unc_copy_node g n D : uncaught (u_copy_node g n D) = (x <- g_copy_node g n D ;; Ok (snd x, fst x)).
Proof.
  unfold u_copy_node, g_copy_node, u_reading, reading. destruct (mem n _); [easy|].
  destruct (node_type D n); try (apply unc_create; apply create_node_ends).
  pose proof (create_element_ends (tag_name D n) D) as H.
  destruct (create_element _ _) as [[e D1]|p|]; [|easy|easy]. cbn [u_create seq_ bind fst snd].
  rewrite unc_seq_, unc_copy_attrs. now destruct (g_copy_attrs _ _ _ _).
Qed.

(* ---- removal *)
Lemma reading_u {A} g n D (k : dom * fate A) : ~ held_mut g n -> u_reading g n D k = k.
Proof. intros H. unfold u_reading. apply mem_not_In in H. now rewrite H. Qed.
Lemma reading_uh {A} g n D (k : dom * fate A) : held_mut g n -> u_reading g n D k = (D, Panics PBorrow).
Proof. intros H. unfold u_reading. apply mem_In in H. now rewrite H. Qed.
Lemma writing_u {A} g n D (k : dom * fate A) : ~ held g n -> u_writing g n D k = k.
Proof. intros H. unfold u_writing. rewrite held_all in H. apply mem_not_In in H. now rewrite H. Qed.
Lemma writing_uh {A} g n D (k : dom * fate A) : held g n -> u_writing g n D k = (D, Panics PBorrow).
Proof. intros H. unfold u_writing. apply held_all, mem_In in H. now rewrite H. Qed.

(* a call that panics without a change *)
Definition same_end (torn : Prop) (D D' : dom) : Prop := (torn -> ~ mirrored D') /\ (~ torn -> D' = D).
Lemma same_no torn D : ~ torn -> same_end torn D D.
Proof. intros H. now split. Qed.
Lemma same_yes (torn : Prop) D D' : torn -> ~ mirrored D' -> same_end torn D D'.
Proof. intros T H. now split. Qed.

Lemma u_remove_cases g self name D : LInv D ->
  match u_remove_attribute g self name D with
  | (D', Gives _) => remove_attribute self name D = Ok D' /\ (has_attribute D self name = false \/ ~ held g self) /\
      ~ held_mut g self /\ forall t, points_to D self name t -> ~ held g t
  | (D', Panics _) => same_end (torn_remove g D self name) D D'
  end.
Proof.
  intros I. destruct (remove_attribute_spec self name D I) as (D1 & E & _ & _ & HL & _).
  unfold u_remove_attribute. destruct (held_mut_dec g self) as [Hm|Hm].
  { rewrite reading_uh by exact Hm. apply same_no. intros (_ & X & _). contradiction. }
  rewrite reading_u by exact Hm. unfold remove_attribute in E |- *. destruct (has_attribute D self name) eqn:Hh; cbn [negb] in *.
  2:{ split; [easy|]. split; [now left|]. split; [exact Hm|]. intros t P. apply old_target_iff in P; [|exact I].
      rewrite old_none in P; [discriminate|exact Hh]. }
  pose proof (fun t => old_target_iff D self name t I) as Ho. unfold old_target in Ho.
  destruct (attrs_get_value (attributes D self) name) as [v|] eqn:Ev; [destruct (link_target v) as [t|] eqn:Et|].
  - assert (Pt : points_to D self name t) by now apply Ho.
    assert (Pu : forall t', points_to D self name t' -> t' = t) by (intros t' P; apply Ho in P; congruence).
    destruct (position _ _) as [i|] eqn:Ep; [|discriminate]. unfold borrow_mut in *. destruct (mem t [self]) eqn:Em; [discriminate|].
    apply mem_not_In in Em. assert (Hts : t <> self) by (cbn in Em; intuition auto).
    destruct (held_dec g t) as [Ht|Ht].
    { assert (Hn : ~ torn_remove g D self name) by (intros (_ & _ & t' & P & X); apply X; rewrite (Pu t' P); exact Ht).
      rewrite (writing_uh (add_ref self g)) by (rewrite held_add; now right).
      unfold u_reading. destruct (mem t _); cbn [seq_]; now apply same_no. }
    rewrite (writing_u (add_ref self g)) by (rewrite held_add; intuition auto).
    rewrite reading_u by now apply free_mut. cbn [seq_]. destruct (held_dec g self) as [Hs|Hs].
    + rewrite writing_uh by exact Hs. apply same_yes.
      { split; [exact Hs|]. split; [exact Hm|]. now exists t. }
      intros M. specialize (M self t). unfold uses in M.
      rewrite (modify_linked_linked t (fun l => remove_at i l)), Nat.eqb_refl in M.
      rewrite (modify_linked_attrs t (fun l => remove_at i l)) in M.
      assert (Hin : In self (linked_nodes D t)).
      { destruct (in_dec Nat.eq_dec self (linked_nodes D t)) as [|X]; [easy|]. exfalso.
        assert (N : position (fun n => Nat.eqb n self) (linked_nodes D t) = None); [|congruence].
        apply position_none. intros x Hx. apply Nat.eqb_neq. now intros ->. }
      destruct (position_del self (linked_nodes D t) Hin) as (j & Ej & Er).
      assert (j = i) by congruence. subst j. change (cnt (remove_at i (linked_nodes D t)) self = count_links t (attributes D self)) in M.
      replace (remove_at i (linked_nodes D t)) with (del_first self (linked_nodes D t)) in M by (symmetry; exact Er).
      rewrite cnt_del_first, Nat.eqb_refl, (li_sym D I) in M.
      assert (0 < count_links t (attributes D self)); [|lia].
      apply count_links_pos. destruct Pt as (a & Ha & _ & Hl). now exists a.
    + rewrite writing_u by exact Hs. split; [reflexivity|]. split; [now right|]. split; [exact Hm|].
      intros t' P. now rewrite (Pu t' P).
  - assert (Hn : forall t, ~ points_to D self name t) by (intros t P; apply Ho in P; congruence).
    cbn [seq_]. destruct (held_dec g self) as [Hs|Hs].
    + rewrite writing_uh by exact Hs. apply same_no. intros (_ & _ & t & P & _). now apply Hn in P.
    + rewrite writing_u by exact Hs. split; [reflexivity|]. split; [now right|]. split; [exact Hm|]. intros t P. now apply Hn in P.
  - assert (Hn : forall t, ~ points_to D self name t) by (intros t P; apply Ho in P; congruence).
    cbn [seq_]. destruct (held_dec g self) as [Hs|Hs].
    + rewrite writing_uh by exact Hs. apply same_no. intros (_ & _ & t & P & _). now apply Hn in P.
    + rewrite writing_u by exact Hs. split; [reflexivity|]. split; [now right|]. split; [exact Hm|]. intros t P. now apply Hn in P.
Qed.
Theorem remove_end g self name D : LInv D -> attr_end (torn_remove g D self name) D (u_remove_attribute g self name D).
Proof. intros I D' q E. pose proof (u_remove_cases g self name D I) as H. now rewrite E in H. Qed.

(* ---- setting *)
Lemma torn_self g D self a : torn_set g D self a -> ~ held_mut g self.
Proof. intros (_ & _ & _ & [(_ & H & _)|(H & _)]); [exact H|now apply free_mut]. Qed.

Lemma u_link_cases g self a node fb D : LInv D -> is_element D self = true -> ~ held_mut g self ->
  link_target (a_value a) = Some node ->
  match u_set_link_attribute g self (a_name a) node fb D with
  | (D', Gives (RErr e)) => D' = D /\ refused D self a = Some e
  | (D', Gives ROk) => True
  | (D', Panics _) => same_end (torn_set g D self a) D D'
  end.
Proof.
  intros I He Hm Et. pose proof (refused_error D self a I) as Hr. unfold link_error in Hr. rewrite Et in Hr.
  unfold u_set_link_attribute. destruct (held_mut_dec g node) as [Hn|Hn].
  { rewrite reading_uh by exact Hn. apply same_no. intros (_ & _ & X & _). now apply (X node). }
  rewrite (reading_u g node) by exact Hn. destruct (negb (has_id D node)); [easy|].
  rewrite (reading_u g self) by exact Hm. destruct (str_eqb _ _) eqn:Es; cbn [orb] in Hr; [easy|].
  assert (Hx : existsb (fun n => Nat.eqb n node) (linked_nodes D self) = mem node (linked_nodes D self)).
  { unfold mem. clear. induction (linked_nodes D self) as [|x l IH]; [easy|]. cbn. now rewrite IH, (Nat.eqb_sym x node). }
  rewrite Hx. destruct (mem node (linked_nodes D self)); [easy|]. clear Hx.
  pose proof (u_remove_cases g self (a_name a) D I) as Hc.
  destruct (u_remove_attribute g self (a_name a) D) as [D1 [u|q]] eqn:Eu; cbn [seq_].
  2:{ destruct Hc as (Ht & Hf). split.
      - intros (_ & _ & _ & [T|(Hs & Ho & _)]); [now apply Ht|]. exfalso.
        assert (X : uncaught_ (u_remove_attribute g self (a_name a) D) = Panic q) by now rewrite Eu.
        rewrite unc_remove_attribute in X. destruct (remove_attribute_spec self (a_name a) D I) as (D2 & E2 & _).
        destruct (has_attribute D self (a_name a)) eqn:Hh.
        + destruct (g_remove_cases g self (a_name a) D D2 Hh E2) as (_ & B). rewrite B in X; [discriminate|].
          intros [Y|(t & P & Y)]; [contradiction|]. apply old_target_iff in P; [|exact I]. now apply (Ho t).
        + unfold g_remove_attribute in X. rewrite Hh in X. rewrite reading_free in X by now apply free_mut. discriminate.
      - intros T. apply Hf. intros T'. apply T. split; [exact He|]. split; [exact Hr|]. split; [|now left].
        intros t Ht'. congruence. }
  destruct Hc as (E1 & Hs & _ & Ho). destruct (held_dec g self) as [Hh|Hh].
  { rewrite writing_uh by exact Hh. destruct Hs as [Hs|Hs]; [|contradiction].
    unfold remove_attribute in E1. rewrite Hs in E1. cbn in E1. injection E1 as <-. apply same_no.
    intros (_ & _ & _ & [(_ & _ & t & P & _)|(X & _)]); [|contradiction].
    apply old_target_iff in P; [|exact I]. rewrite old_none in P; [discriminate|exact Hs]. }
  rewrite writing_u by exact Hh. destruct (held_dec g node) as [Hg|Hg]; [|now rewrite writing_u].
  rewrite writing_uh by exact Hg. apply same_yes.
  { split; [exact He|]. split; [exact Hr|]. split; [intros t X; congruence|]. right. split; [exact Hh|]. split; [exact Ho|].
    exists node. now split. }
  destruct (remove_attribute_spec self (a_name a) D I) as (D2 & E2 & _ & Ha & _ & I1).
  assert (D2 = D1) by congruence. subst D2. intros M. specialize (M self node).
  set (b := link_attr (a_name a) node fb) in *. unfold uses in M.
  rewrite (modify_attrs_linked self (fun l => attrs_insert l b)) in M.
  rewrite (modify_attrs_attrs self (fun l => attrs_insert l b)), Nat.eqb_refl in M.
  rewrite attrs_insert_new in M by (unfold b; rewrite link_attr_name, Ha, Nat.eqb_refl; apply drop_name_notin).
  change (cnt (linked_nodes D1 node) self = count_links node (attributes D1 self ++ [b])) in M.
  assert (Hz : count_links node [b] = 1).
  { unfold count_links. cbn. unfold links_to, b. now rewrite link_attr_target, Nat.eqb_refl. }
  rewrite count_links_app, (li_sym D1 I1), Hz in M. lia.
Qed.

Lemma u_simple_cases g self a D : LInv D -> is_element D self = true -> ~ held_mut g self ->
  link_target (a_value a) = None ->
  match u_set_simple_attribute g self a D with
  | (D', Gives _) => True
  | (D', Panics _) => same_end (torn_set g D self a) D D'
  end.
Proof.
  intros I He Hm Et. unfold u_set_simple_attribute.
  assert (Hr : refused D self a = None) by (unfold refused; now rewrite Et).
  destruct (is_link_container (a_value a)) eqn:Ec; [now destruct (a_value a)|].
  pose proof (u_remove_cases g self (a_name a) D I) as Hc.
  destruct (u_remove_attribute g self (a_name a) D) as [D1 [u|q]] eqn:Eu; cbn [seq_].
  2:{ destruct Hc as (Ht & Hf). split.
      - intros (_ & _ & _ & [T|(_ & _ & t & X & _)]); [now apply Ht|congruence].
      - intros T. apply Hf. intros T'. apply T. split; [exact He|]. split; [exact Hr|]. split; [|now left].
        intros t Ht'. congruence. }
  destruct Hc as (E1 & Hs & _ & Ho). destruct (held_dec g self) as [Hh|Hh]; [|now rewrite writing_u].
  rewrite writing_uh by exact Hh. destruct Hs as [Hs|Hs]; [|contradiction].
  unfold remove_attribute in E1. rewrite Hs in E1. cbn in E1. injection E1 as <-. apply same_no.
  intros (_ & _ & _ & [(_ & _ & t & P & _)|(X & _)]); [|contradiction].
  apply old_target_iff in P; [|exact I]. rewrite old_none in P; [discriminate|exact Hs].
Qed.

Lemma u_checked_cases g self a D : LInv D ->
  match u_set_attribute_checked g self a D with
  | (D', Gives (RErr e)) => D' = D /\ refused D self a = Some e
  | (D', Gives ROk) => True
  | (D', Panics _) => same_end (torn_set g D self a) D D'
  end.
Proof.
  intros I. unfold u_set_attribute_checked. destruct (held_mut_dec g self) as [Hm|Hm].
  { rewrite reading_uh by exact Hm. apply same_no. intros T. now apply torn_self in T. }
  rewrite reading_u by exact Hm. destruct (is_element D self) eqn:He; cbn [negb].
  2:{ apply same_no. intros (X & _). congruence. }
  pose proof (u_simple_cases g self a D I He Hm) as Hs.
  assert (Hsm : link_target (a_value a) = None ->
    match (D1 <~ u_set_simple_attribute g self a D ;; (D1, Gives ROk)) with
    | (D', Gives (RErr e)) => D' = D /\ refused D self a = Some e
    | (D', Gives ROk) => True
    | (D', Panics _) => same_end (torn_set g D self a) D D'
    end).
  { intros E. specialize (Hs E). destruct (u_set_simple_attribute g self a D) as [D1 [u|q]]; cbn [seq_]; [easy|exact Hs]. }
  destruct (a_value a) eqn:Ev; try (apply Hsm; reflexivity); now apply u_link_cases; rewrite ?Ev.
Qed.
Theorem checked_end g self a D : LInv D -> attr_end (torn_set g D self a) D (u_set_attribute_checked g self a D).
Proof. intros I D' q E. pose proof (u_checked_cases g self a D I) as H. now rewrite E in H. Qed.
Theorem set_end g self a D : LInv D -> attr_end (torn_set g D self a) D (u_set_attribute g self a D).
Proof.
  intros I D' q E. pose proof (u_checked_cases g self a D I) as H. unfold u_set_attribute in E.
  destruct (u_set_attribute_checked g self a D) as [D1 [[|e]|p]]; cbn [seq_] in E; try discriminate.
  - injection E as <- <-. destruct H as (-> & H). apply same_no. intros (_ & X & _). congruence.
  - injection E as <- <-. exact H.
Qed.
Theorem if_none_end g self a D : LInv D ->
  attr_end (has_attribute D self (a_name a) = false /\ torn_set g D self a) D (u_set_attribute_if_none g self a D).
Proof.
  intros I D' q E. unfold u_set_attribute_if_none in E. destruct (held_mut_dec g self) as [Hm|Hm].
  { rewrite reading_uh in E by exact Hm. injection E as <- <-. apply same_no. intros (_ & T). now apply torn_self in T. }
  rewrite reading_u in E by exact Hm. destruct (has_attribute D self (a_name a)); cbn [negb] in E; [discriminate|].
  destruct (set_end g self a D I D' q E) as (A & B). split; [intros (_ & T); now apply A|]. intros T. apply B. tauto.
Qed.

(* ---- without guards *)
Lemma not_held n : ~ held no_guards n.
Proof. intros [[]|[]]. Qed.
Lemma untorn_remove D self name : ~ torn_remove no_guards D self name.
Proof. intros (X & _). now apply not_held in X. Qed.
Lemma untorn_set D self a : ~ torn_set no_guards D self a.
Proof. intros (_ & _ & _ & [(X & _)|(_ & _ & t & _ & X)]); now apply not_held in X. Qed.

(* ---- copies *)
Lemma set_reach D n a D' : reachable D -> n < fresh D -> (forall t, link_target (a_value a) = Some t -> t < fresh D) ->
  set_attribute n a D = Ok D' -> reachable D'.
Proof.
  intros H Hn Ht E. apply (reach_step D (OSetAttribute n a) D' H); [|exact E]. split; [|exact Logic.I].
  intros m. cbn [handles]. intros [<-|Hm]; [exact Hn|]. destruct (link_target (a_value a)) as [t|]; [|destruct Hm].
  destruct Hm as [<-|[]]. now apply Ht.
Qed.

Lemma stuck_frame g D D1 a : (forall m, id_of D1 m = id_of D m) -> stuck g D1 a <-> stuck g D a.
Proof. intros H. unfold stuck. split; intros (t & Ht & X); exists t; rewrite H in *; now split. Qed.

Lemma u_copy_attrs_end g src elem : src <> elem -> ~ held g elem -> forall todo D,
  reachable D -> elem < fresh D -> is_element D elem = true -> id_of D elem = [] -> linked_nodes D elem = [] ->
  NoDup (map a_name (attributes D elem ++ todo)) -> (forall a, In a todo -> stored a = a) ->
  (forall a t, In a todo -> link_target (a_value a) = Some t -> t < fresh D /\ t <> src) ->
  forall D' q, u_copy_attrs (add_ref src g) elem todo D = (D', Panics q) ->
  exists pre a post D1, todo = pre ++ a :: post /\ (forall b, In b pre -> ~ stuck g D b) /\ stuck g D a /\
    reachable D1 /\ frame D D1 /\ attributes D1 elem = attributes D elem ++ pre /\
    (forall m, m <> elem -> attributes D1 m = attributes D m) /\
    same_end (torn_copy g D a) D1 D'.
Proof.
  intros Hse Hel. induction todo as [|a todo IH]; intros D R Hef He Hid Hli Hnd Hsh Htg D' q E; cbn [u_copy_attrs] in E; [discriminate|].
  pose proof (reach_linv D R) as I.
  assert (Hnin : ~ In (a_name a) (map a_name (attributes D elem))).
  { rewrite map_app in Hnd. cbn in Hnd. apply NoDup_remove_2 in Hnd. rewrite in_app_iff in Hnd. tauto. }
  assert (Hnp : forall t, ~ points_to D elem (a_name a) t) by (now apply no_points).
  assert (Hes : ~ held (add_ref src g) elem) by (rewrite held_add; intuition auto).
  pose proof (set_attribute_checked_spec elem a D I He) as Hs.
  destruct (g_set_checked_cases (add_ref src g) elem a D I) as (_ & Cb & Cc).
  assert (Hre : forall t, link_target (a_value a) = Some t -> refused D elem a = if has_id D t then None else Some ElementMustHaveAnId).
  { intros t Et. rewrite (refused_error D elem a I). now apply link_error_new. }
  assert (Hidt : forall t, has_id D t = true <-> id_of D t <> []).
  { intros t. unfold has_id. destruct (id_of D t); [now split|]. now split. }
  assert (Htorn : torn_set (add_ref src g) D elem a <-> torn_copy g D a).
  { unfold torn_copy. split.
    - intros (_ & X & Y & [(Z & _)|(_ & _ & t & Et & Z)]); [contradiction|]. exists t. split; [exact Et|].
      rewrite (Hre t Et) in X. destruct (has_id D t) eqn:Hi; [|discriminate]. split; [now apply Hidt|].
      destruct (Htg a t (or_introl eq_refl) Et) as (_ & Hts). apply held_add in Z. destruct Z as [Z|Z]; [contradiction|].
      split; [exact Z|]. intros M. apply (Y t Et). now apply held_add_mut.
    - intros (t & Et & Hi & Hh & Hm). split; [exact He|]. split.
      { rewrite (Hre t Et). apply Hidt in Hi. now rewrite Hi. }
      split; [intros t' Et'; rewrite held_add_mut; congruence|]. right. split; [exact Hes|].
      split; [intros t' P; now apply Hnp in P|]. exists t. split; [exact Et|]. apply held_add. now right. }
  destruct (u_set_attribute (add_ref src g) elem a D) as [D1 [u|p]] eqn:Eu; cbn [seq_] in E.
  - assert (G : g_set_attribute (add_ref src g) elem a D = Ok D1) by (rewrite <- unc_set_attribute, Eu; reflexivity).
    assert (Hns : ~ stuck g D a).
    { intros (t & Et & X). unfold g_set_attribute in G. rewrite <- (refused_error D elem a I), (Hre t Et) in Hs.
      destruct (has_id D t) eqn:Hi.
      - destruct Hs as (D2 & E2 & _). destruct X as [X|X]; [apply Hidt in Hi; contradiction|].
        destruct (Cc D2 E2) as (C1 & _). rewrite C1 in G; [discriminate|]. right. exists t.
        split; [now left|]. apply held_add. now right.
      - destruct (Cb D ElementMustHaveAnId Hs) as (C1 & C2).
        destruct (held_mut_dec g t) as [M|M]; [rewrite C1 in G; [discriminate|]; right; exists t; split; [easy|now apply held_add_mut]|].
        rewrite C2 in G; [discriminate|]. intros [Y|(t' & Et' & Y)]; [apply Hes; now apply mut_held|].
        apply held_add_mut in Y. congruence. }
    destruct (link_error D elem a) as [e|] eqn:Ele.
    { exfalso. unfold g_set_attribute in G. destruct (Cb D e Hs) as (C1 & C2).
      rewrite <- (refused_error D elem a I) in Ele. apply Hns. unfold stuck. unfold refused in Ele.
      destruct (link_target (a_value a)) as [t|] eqn:Et; [|discriminate]. exists t. split; [easy|].
      specialize (Hre t eq_refl). unfold refused in Hre. rewrite Et, Ele in Hre.
      destruct (has_id D t) eqn:Hi; [discriminate|]. left. unfold has_id in Hi. now destruct (id_of D t). }
    destruct Hs as (D2 & E2 & Hf & Ha & Hl & I2).
    assert (Hset : set_attribute elem a D = Ok D2) by (unfold set_attribute; now rewrite E2).
    assert (D2 = D1).
    { destruct (g_set_attribute_cases (add_ref src g) elem a D I) as (_ & B). destruct (B D2 Hset) as (B1 & B2).
      destruct (link_target (a_value a)) as [t|] eqn:Et.
      - rewrite B2 in G; [congruence|]. intros [X|(t' & [X|X] & Y)]; [contradiction| |now apply Hnp in X].
        apply held_add in Y. destruct (Htg a t (or_introl eq_refl) Et) as (_ & Hts). rewrite Et in X. injection X as <-.
        destruct Y as [Y|Y]; [contradiction|]. apply Hns. exists t. auto.
      - rewrite B2 in G; [congruence|]. intros [X|(t' & [X|X] & Y)]; [contradiction|congruence|now apply Hnp in X]. }
    subst D2. rewrite (Hsh a (or_introl eq_refl)) in Ha.
    assert (Hat : attributes D1 elem = attributes D elem ++ [a]).
    { rewrite Ha, Nat.eqb_refl, drop_name_absent; easy. }
    assert (R1 : reachable D1).
    { apply (set_reach D elem a D1 R Hef); [|exact Hset]. intros t Et. now apply (Htg a t (or_introl eq_refl)). }
    destruct (IH D1) with (D' := D') (q := q) as (pre & b & post & D3 & E3 & P1 & P2 & R3 & F3 & A3 & O3 & S3); try easy.
    + rewrite (fr_fresh _ _ Hf). exact Hef.
    + unfold is_element. rewrite (fr_type _ _ Hf). exact He.
    + now rewrite (fr_id _ _ Hf).
    + rewrite Hl, named_target_absent by easy. rewrite Hli.
      destruct (link_target (a_value a)) as [t|] eqn:Et; [|easy]. destruct (Nat.eqb_spec elem t) as [<-|]; [|easy].
      exfalso. apply Hns. exists elem. auto.
    + rewrite Hat, <- app_assoc. exact Hnd.
    + intros b Hb. apply Hsh. now right.
    + intros b t Hb. rewrite (fr_fresh _ _ Hf). apply Htg. now right.
    + exists (a :: pre), b, post, D3. split; [now rewrite E3|]. split; [|split; [|split; [exact R3|split; [|split; [|split]]]]].
      * intros c [<-|Hc]; [exact Hns|]. rewrite <- (stuck_frame g D D1) by apply (fr_id _ _ Hf). now apply P1.
      * rewrite <- (stuck_frame g D D1) by apply (fr_id _ _ Hf). exact P2.
      * now apply (frame_trans D D1 D3).
      * now rewrite A3, Hat, <- app_assoc.
      * intros m Hm. rewrite O3 by exact Hm. rewrite Ha. now destruct (Nat.eqb_spec m elem).
      * assert (Ht : torn_copy g D1 b <-> torn_copy g D b).
        { unfold torn_copy. split; intros (t & X); exists t; rewrite (fr_id _ _ Hf) in *; exact X. }
        destruct S3 as (X & Y). split; intros T; [apply X|apply Y]; now rewrite Ht.
  - injection E as <- <-. exists [], a, todo, D. split; [easy|]. split; [intros b []|]. split.
    + assert (G : g_set_attribute (add_ref src g) elem a D = Panic p) by (rewrite <- unc_set_attribute, Eu; reflexivity).
      rewrite <- (refused_error D elem a I) in Hs. destruct (refused D elem a) as [e|] eqn:Er.
      * unfold refused in Er. destruct (link_target (a_value a)) as [t|] eqn:Et; [|discriminate]. exists t. split; [easy|].
        specialize (Hre t eq_refl). destruct (has_id D t) eqn:Hi; [congruence|]. left. unfold has_id in Hi. now destruct (id_of D t).
      * destruct Hs as (D2 & E2 & _). destruct (Cc D2 E2) as (_ & C2). unfold g_set_attribute in G.
        destruct (link_target (a_value a)) as [t|] eqn:Et.
        -- exists t. split; [easy|]. destruct (held_dec g t) as [|Hh]; [now right|]. exfalso. rewrite C2 in G; [discriminate|].
           intros [X|(t' & [X|X] & Y)]; [contradiction| |now apply Hnp in X]. rewrite Et in X. injection X as <-.
           apply held_add in Y. destruct (Htg a t (or_introl eq_refl) Et) as (_ & Hts). destruct Y; contradiction.
        -- exfalso. rewrite C2 in G; [discriminate|]. intros [X|(t' & [X|X] & Y)]; [contradiction|congruence|now apply Hnp in X].
    + split; [exact R|]. split; [apply frame_refl|]. split; [now rewrite app_nil_r|]. split; [easy|].
      destruct (set_end (add_ref src g) elem a D I D1 p Eu) as (X & Y). split; intros T; [apply X|apply Y]; now rewrite Htorn.
Qed.

Theorem copy_node_end g n D : reachable D -> n < fresh D -> (forall x, held g x -> x < fresh D) ->
  copy_end g D n (u_copy_node g n D).
Proof.
  intros R Hn Hg D' q E. unfold u_copy_node in E. destruct (held_mut_dec g n) as [Hm|Hm].
  { rewrite reading_uh in E by exact Hm. injection E as <- <-. now left. }
  rewrite reading_u in E by exact Hm.
  assert (Hc : forall r, u_create r D = (D', Panics q) -> D' = D).
  { intros [[m D1]|p|] X; cbn in X; congruence. }
  destruct (node_type D n) eqn:Et; try (left; now apply Hc in E).
  destruct (create_element (tag_name D n) D) as [[m D1]|p|] eqn:Ec; cbn [u_create seq_] in E.
  2:{ left. congruence. }
  2:{ left. congruence. }
  destruct (reachable_inv D R) as (F & I & _).
  destruct (create_element_inv D F _ _ I Ec) as (Hm1 & I1 & Hlk1 & Hf1 & Hr1 & k & Hd1). cbn [fst snd] in *. subst m.
  assert (Hnew : dt D1 (fresh D) = set_key (Some k) (new_data NElement (tag_name D n) [])).
  { rewrite Hd1. now rewrite Nat.eqb_refl. }
  assert (Hold : forall m, m < fresh D -> dt D1 m = dt D m).
  { intros m Hl. rewrite Hd1. destruct (Nat.eqb_spec m (fresh D)); [subst; now apply Nat.lt_irrefl in Hl|easy]. }
  assert (R1 : reachable D1).
  { apply (reach_step D (OCreateElement (tag_name D n)) D1 R); [split; [intros x []|exact Logic.I]|].
    cbn. now rewrite Ec. }
  destruct (u_copy_attrs (add_ref n g) (fresh D) (attributes D n) D1) as [D2 [u|p]] eqn:Eu; cbn [seq_] in E; [discriminate|].
  injection E as <- <-. right. split; [easy|].
  assert (Hids : forall t, t < fresh D -> id_of D1 t = id_of D t) by (intros t Hl; unfold id_of; now rewrite Hold).
  assert (Htf : forall a t, In a (attributes D n) -> link_target (a_value a) = Some t -> t < fresh D).
  { intros a t Ha Ht. apply (target_exists D F n t I). apply count_links_pos. now exists a. }
  destruct (u_copy_attrs_end g n (fresh D)) with (todo := attributes D n) (D := D1) (D' := D2) (q := p)
    as (pre & a & post & D3 & E3 & P1 & P2 & R3 & F3 & A3 & O3 & S3); auto.
  - intros ->. now apply Nat.lt_irrefl in Hn.
  - intros X. apply Hg in X. now apply Nat.lt_irrefl in X.
  - rewrite Hf1. lia.
  - unfold is_element, node_type. now rewrite Hnew.
  - unfold id_of. now rewrite Hnew.
  - unfold linked_nodes. now rewrite Hnew.
  - unfold attributes at 1. rewrite Hnew. apply (li_uniq D (iv_link D F I)).
  - intros a Ha. now apply (iv_shape D F I n).
  - intros a t Ha Ht. specialize (Htf a t Ha Ht). split; [rewrite Hf1; lia|]. intros ->.
    assert (X : 0 < count_links n (attributes D n)) by (apply count_links_pos; now exists a).
    rewrite (li_self D (iv_link D F I)) in X. lia.
  - assert (Hst : forall b, In b (attributes D n) -> stuck g D1 b <-> stuck g D b).
    { intros b Hb. unfold stuck. split; intros (t & Ht & X); exists t; rewrite (Hids t (Htf b t Hb Ht)) in *; now split. }
    assert (Hina : In a (attributes D n)) by (rewrite E3, in_app_iff; right; now left).
    exists pre, a, post. split; [exact E3|]. split; [|split; [now apply Hst|]].
    + intros b Hb. rewrite <- Hst; [now apply P1|]. rewrite E3, in_app_iff. now left.
    + assert (Ht : torn_copy g D1 a <-> torn_copy g D a).
      { unfold torn_copy. split; intros (t & Ht & X); exists t; rewrite (Hids t (Htf a t Hina Ht)) in *; now split. }
      destruct S3 as (X & Y). rewrite Ht in X, Y. split; [exact X|]. intros T. rewrite (Y T). split; [exact R3|].
      split.
      * now rewrite (fr_lk _ _ F3).
      * now rewrite (fr_fresh _ _ F3).
      * rewrite (fr_type _ _ F3). unfold node_type. now rewrite Hnew.
      * rewrite (fr_tag _ _ F3). unfold tag_name at 1. now rewrite Hnew.
      * rewrite (fr_id _ _ F3). unfold id_of. now rewrite Hnew.
      * rewrite A3. unfold attributes. now rewrite Hnew.
      * intros m Hl. rewrite (fr_type _ _ F3), (fr_tag _ _ F3), (fr_id _ _ F3), (fr_text _ _ F3), O3 by lia.
        unfold node_type, tag_name, id_of, text_of, attributes. now rewrite !Hold.
Qed.

(* ---- without guards, by the name of the call *)
Theorem remove_unchanged self name D : reachable D ->
  uncaught_ (u_remove_attribute no_guards self name D) = remove_attribute self name D /\
  forall D' q, u_remove_attribute no_guards self name D = (D', Panics q) -> D' = D.
Proof.
  intros R. split; [now rewrite unc_remove_attribute, remove_free|]. intros D' q E.
  now apply (remove_end no_guards self name D (reach_linv D R) D' q E), untorn_remove.
Qed.
Theorem checked_unchanged self a D : reachable D ->
  uncaught (u_set_attribute_checked no_guards self a D) = set_attribute_checked self a D /\
  forall D' q, u_set_attribute_checked no_guards self a D = (D', Panics q) -> D' = D.
Proof.
  intros R. split; [now rewrite unc_checked, checked_free|]. intros D' q E.
  now apply (checked_end no_guards self a D (reach_linv D R) D' q E), untorn_set.
Qed.
Lemma set_free self a D : g_set_attribute no_guards self a D = set_attribute self a D.
Proof. unfold g_set_attribute, set_attribute. now rewrite checked_free. Qed.
Theorem set_unchanged self a D : reachable D ->
  uncaught_ (u_set_attribute no_guards self a D) = set_attribute self a D /\
  forall D' q, u_set_attribute no_guards self a D = (D', Panics q) -> D' = D.
Proof.
  intros R. split; [now rewrite unc_set_attribute, set_free|]. intros D' q E.
  now apply (set_end no_guards self a D (reach_linv D R) D' q E), untorn_set.
Qed.
Theorem if_none_unchanged self a D : reachable D ->
  uncaught_ (u_set_attribute_if_none no_guards self a D) = set_attribute_if_none self a D /\
  forall D' q, u_set_attribute_if_none no_guards self a D = (D', Panics q) -> D' = D.
Proof.
  intros R. split.
  - rewrite unc_if_none. unfold g_set_attribute_if_none, set_attribute_if_none. rewrite set_free. apply reading_free. intros [].
  - intros D' q E. apply (if_none_end no_guards self a D (reach_linv D R) D' q E). intros (_ & T). now apply untorn_set in T.
Qed.
Theorem copy_started n D : reachable D -> exists_node D n ->
  uncaught (u_copy_node no_guards n D) = (x <- copy_node n D ;; Ok (snd x, fst x)) /\
  forall D' q, u_copy_node no_guards n D = (D', Panics q) ->
    reachable D' /\
    (D' = D \/ exists pre a post, attributes D n = pre ++ a :: post /\
       (exists t, link_target (a_value a) = Some t /\ id_of D t = []) /\ started_copy D n pre D').
Proof.
  intros R Hn. split; [now rewrite unc_copy_node, copy_node_free|]. intros D' q E.
  destruct (copy_node_end no_guards n D R Hn) with (D' := D') (q := q) as [->|(_ & pre & a & post & E1 & _ & S & _ & H)]; auto.
  - intros x X. now apply not_held in X.
  - destruct H as (R' & Sc).
    + intros (t & _ & _ & X & _). now apply not_held in X.
    + split; [exact R'|]. right. exists pre, a, post. split; [exact E1|]. split; [|exact Sc].
      destruct S as (t & Ht & [X|X]); [now exists t|now apply not_held in X].
Qed.

(* ---- in a document, with the guards of the user *)
Lemma move_end_iff (e1 e2 : Prop) L r o : (e1 <-> e2) -> move_end e1 L r o -> move_end e2 L r o.
Proof. intros E (A & B). split; [exact A|]. intros L' q X. destruct (B L' q X). tauto. Qed.
Theorem append_end_api g p n D : reachable D ->
  move_end (p = n \/ held g p \/ held g n) (lk D) (append (all_guards g) p n (lk D)) (u_append (all_guards g) p n (lk D)).
Proof. intros R. eapply move_end_iff; [|apply (append_end (all_guards g) p n (lk D) (reachable_shows D R))]. now rewrite !held_all. Qed.
Theorem prepend_end_api g p n D : reachable D ->
  move_end (p = n \/ held g p \/ held g n) (lk D) (prepend (all_guards g) p n (lk D)) (u_prepend (all_guards g) p n (lk D)).
Proof. intros R. eapply move_end_iff; [|apply (prepend_end (all_guards g) p n (lk D) (reachable_shows D R))]. now rewrite !held_all. Qed.
Theorem insert_after_end_api g a n D : reachable D ->
  move_end (a = n \/ held g a \/ held g n) (lk D) (insert_after (all_guards g) a n (lk D)) (u_insert_after (all_guards g) a n (lk D)).
Proof. intros R. eapply move_end_iff; [|apply (insert_after_end (all_guards g) a n (lk D) (reachable_shows D R))]. now rewrite !held_all. Qed.
Theorem insert_before_end_api g a n D : reachable D ->
  move_end (a = n \/ held g a \/ held g n) (lk D) (insert_before (all_guards g) a n (lk D)) (u_insert_before (all_guards g) a n (lk D)).
Proof. intros R. eapply move_end_iff; [|apply (insert_before_end (all_guards g) a n (lk D) (reachable_shows D R))]. now rewrite !held_all. Qed.
Theorem detach_end_api g n D : reachable D ->
  move_end (held g n) (lk D) (detach (all_guards g) n (lk D)) (u_detach (all_guards g) n (lk D)).
Proof. intros R. eapply move_end_iff; [|apply (detach_end (all_guards g) n (lk D) (reachable_shows D R))]. now rewrite held_all. Qed.
