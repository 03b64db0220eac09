(* Programs that mix the nodes of several documents: trees and links. *)
From Coq Require Import List Bool PeanoNat NArith Lia.
From Verif Require Import Base Ids Links Tree Iter ForestSpec ListFacts TreeProofs ForestFacts
  Data Attrs Slab NodeApi Doc AttrFacts LinkProofs AttrSpec DocSpec RemoveProofs History InvProofs
  HistoryProofs TreeSpec TreeApi World WorldSpec WorldInv.
Import ListNotations.

(* ---- calls that do not touch the links of the tree *)
Definition keeps (D D' : dom) : Prop := lk D' = lk D /\ fresh D' = fresh D.
Lemma keeps_trans D1 D2 D3 : keeps D1 D2 -> keeps D2 D3 -> keeps D1 D3.
Proof. intros (A & B) (C & E). split; congruence. Qed.
Lemma remove_attribute_keeps n x D D' : remove_attribute n x D = Ok D' -> keeps D D'.
Proof.
  unfold remove_attribute. destruct (negb _); [now intros [= <-]|]. intros H. ok_bind H D1 E. injection H as <-.
  assert (H1 : keeps D D1).
  { destruct (attrs_get_value _ x) as [v|]; [|now injection E as <-].
    destruct (link_target v); [|now injection E as <-]. destruct (position _ _); [|easy].
    unfold borrow_mut in E. destruct (mem _ _); [easy|]. now injection E as <-. }
  exact H1.
Qed.
Lemma set_simple_keeps n a D D' : set_simple_attribute n a D = Ok D' -> keeps D D'.
Proof.
  unfold set_simple_attribute. destruct (is_link_container _); [easy|]. intros H. ok_bind H D1 E. injection H as <-.
  now apply remove_attribute_keeps in E.
Qed.
Lemma set_link_keeps n x t fb D r : set_link_attribute n x t fb D = Ok r -> keeps D (fst r).
Proof.
  unfold set_link_attribute. destruct (negb _); [now intros [= <-]|]. destruct (str_eqb _ _); [now intros [= <-]|].
  destruct (existsb _ _); [now intros [= <-]|]. intros H. ok_bind H D1 E. injection H as <-. now apply remove_attribute_keeps in E.
Qed.
Lemma set_checked_keeps n a D r : set_attribute_checked n a D = Ok r -> keeps D (fst r).
Proof.
  unfold set_attribute_checked. destruct (negb _); [easy|].
  assert (Hs : (D <- set_simple_attribute n a D ;; Ok (D, ROk)) = Ok r -> keeps D (fst r)).
  { intros H. ok_bind H D1 E. injection H as <-. now apply set_simple_keeps in E. }
  destruct (a_value a); try exact Hs; apply set_link_keeps.
Qed.
Lemma set_attribute_keeps n a D D' : set_attribute n a D = Ok D' -> keeps D D'.
Proof.
  unfold set_attribute. intros H. ok_bind H r E. apply set_checked_keeps in E. destruct r as [D1 []]; [|easy].
  now injection H as <-.
Qed.
Lemma remove_all_keeps n l : forall D D', remove_all n l D = Ok D' -> keeps D D'.
Proof.
  induction l as [|x l IH]; intros D D' H; cbn in H; [now injection H as <-|]. ok_bind H D1 E.
  apply remove_attribute_keeps in E. apply (keeps_trans D D1); [easy|now apply IH].
Qed.
Lemma unlink_users_keeps n l : forall D D', unlink_users n l D = Ok D' -> keeps D D'.
Proof.
  induction l as [|x l IH]; intros D D' H; cbn in H; [now injection H as <-|]. ok_bind H D1 E.
  apply remove_all_keeps in E. apply (keeps_trans D D1); [easy|now apply IH].
Qed.
Lemma remove_links_keeps n D D' : remove_links n D = Ok D' -> keeps D D'.
Proof.
  unfold remove_links. intros H. ok_bind H D1 E. apply remove_all_keeps in E. apply (keeps_trans D D1); [easy|].
  now apply unlink_users_keeps in H.
Qed.
Lemma alloc_keeps d D r : alloc d D = Ok r -> fst r = fresh D /\ lk (snd r) = lk D /\ fresh (snd r) = S (fresh D).
Proof. unfold alloc. intros H. ok_bind H s E. now injection H as <-. Qed.
Lemma create_element_keeps t D r : create_element t D = Ok r -> fst r = fresh D /\ lk (snd r) = lk D /\ fresh (snd r) = S (fresh D).
Proof. unfold create_element. destruct (empty_tag t); [easy|]. apply alloc_keeps. Qed.
Lemma create_node_keeps ty s D r : create_node ty s D = Ok r -> fst r = fresh D /\ lk (snd r) = lk D /\ fresh (snd r) = S (fresh D).
Proof. unfold create_node. destruct (_ || _); [easy|]. apply alloc_keeps. Qed.
Lemma copy_attrs_keeps src e l : forall D D', copy_attrs src e l D = Ok D' -> keeps D D'.
Proof.
  induction l as [|a l IH]; intros D D' H; cbn in H; [now injection H as <-|]. ok_bind H D1 E.
  apply (keeps_trans D D1); [|now apply IH].
  destruct (link_target (a_value a)); [destruct (_ && _); [easy|]|]; now apply set_attribute_keeps in E.
Qed.
Lemma copy_node_keeps n D r : copy_node n D = Ok r -> fst r = fresh D /\ lk (snd r) = lk D /\ fresh (snd r) = S (fresh D).
Proof.
  unfold copy_node. destruct (node_type D n); try apply create_node_keeps. intros H. ok_bind H r1 E. ok_bind H D2 E2.
  injection H as <-. apply create_element_keeps in E. apply copy_attrs_keeps in E2. destruct E2. cbn. intuition congruence.
Qed.

(* ---- trees *)
Definition TI (D : dom) : Prop := exists F, Rep (lk D) F /\ forall n, fresh D <= n -> isolated F n.

Lemma TI_keeps D D' : lk D' = lk D -> fresh D <= fresh D' -> TI D -> TI D'.
Proof. intros E Hle (F & R & Hi). exists F. rewrite E. split; [easy|]. intros n Hn. apply Hi. lia. Qed.
Lemma TI_detach n D L' : TI D -> detach [] n (lk D) = Ok L' -> TI (with_lk L' D).
Proof.
  intros (F & R & Hi) H. pose proof (detach_refines [] n (lk D) F R) as Hr. destruct (_ || _); [congruence|].
  destruct Hr as (L1 & E & R1 & _). rewrite H in E. injection E as <-. exists (f_detach n F). split; [easy|].
  intros m Hm. now apply iso_detach, Hi.
Qed.
Lemma TI_append p n D L' : TI D -> p < fresh D -> n < fresh D -> append [] p n (lk D) = Ok L' -> TI (with_lk L' D).
Proof.
  intros (F & R & Hi) Hp Hn H. pose proof (append_refines [] p n (lk D) F R) as Hr.
  destruct (Nat.eqb_spec p n) as [|Hpn]; [congruence|]. destruct (append_conflict _ _ _ _); [congruence|].
  destruct Hr as (L1 & E & R1 & _). rewrite H in E. injection E as <-. exists (f_append p n F). split; [easy|].
  cbn. intros m Hm. apply iso_append; [apply R|now apply Hi|lia|lia].
Qed.
Lemma TI_prepend p n D L' : TI D -> p < fresh D -> n < fresh D -> prepend [] p n (lk D) = Ok L' -> TI (with_lk L' D).
Proof.
  intros (F & R & Hi) Hp Hn H. pose proof (prepend_refines [] p n (lk D) F R) as Hr.
  destruct (Nat.eqb_spec p n) as [|Hpn]; [congruence|]. destruct (prepend_conflict _ _ _ _); [congruence|].
  destruct Hr as (L1 & E & R1 & _). rewrite H in E. injection E as <-. exists (f_prepend p n F). split; [easy|].
  cbn. intros m Hm. apply iso_prepend; [apply R|now apply Hi|lia|lia].
Qed.
Lemma TI_insert_after p n D L' : TI D -> p < fresh D -> n < fresh D -> insert_after [] p n (lk D) = Ok L' -> TI (with_lk L' D).
Proof.
  intros (F & R & Hi) Hp Hn H. pose proof (insert_after_refines [] p n (lk D) F R) as Hr.
  destruct (Nat.eqb_spec p n) as [|Hpn]; [congruence|]. destruct (insert_after_conflict _ _ _ _); [congruence|].
  destruct Hr as (L1 & E & R1 & _). rewrite H in E. injection E as <-. exists (f_insert_after p n F). split; [easy|].
  cbn. intros m Hm. apply iso_insert_after; [apply R|now apply Hi|lia|lia|easy].
Qed.
Lemma TI_insert_before p n D L' : TI D -> p < fresh D -> n < fresh D -> insert_before [] p n (lk D) = Ok L' -> TI (with_lk L' D).
Proof.
  intros (F & R & Hi) Hp Hn H. pose proof (insert_before_refines [] p n (lk D) F R) as Hr.
  destruct (Nat.eqb_spec p n) as [|Hpn]; [congruence|]. destruct (insert_before_conflict _ _ _ _); [congruence|].
  destruct Hr as (L1 & E & R1 & _). rewrite H in E. injection E as <-. exists (f_insert_before p n F). split; [easy|].
  cbn. intros m Hm. apply iso_insert_before; [apply R|now apply Hi|lia|lia|easy].
Qed.
Lemma TI_remove_finish n D D' : TI D -> remove_finish n D = Ok D' -> TI D' /\ fresh D' = fresh D.
Proof.
  intros T H. unfold remove_finish in H. ok_bind H L E. apply (TI_detach n D L T) in E.
  destruct (storage_key (with_lk L D) n); [|injection H as <-; now split]. ok_bind H r Er. injection H as <-. now split.
Qed.
Lemma TI_remove_rec fuel : forall n D D', TI D -> remove_rec fuel n D = Ok D' -> TI D' /\ fresh D' = fresh D.
Proof.
  induction fuel as [|fuel IH]; intros n D D' T H; [easy|]. cbn in H. ok_bind H D1 E1. ok_bind H D2 E2.
  destruct (remove_links_keeps n D D1 E1) as (A & B).
  assert (T1 : TI D1) by (apply (TI_keeps D); [easy|lia|easy]).
  assert (T2 : TI D2 /\ fresh D2 = fresh D1).
  { eapply (for_children_inv lk (fun X => TI X /\ fresh X = fresh D1)); [|split; [exact T1|reflexivity]|exact E2].
    intros c s s' (Ts & Es) Hb. destruct (IH c s s' Ts Hb). split; [easy|congruence]. }
  destruct T2 as (T2 & F2). destruct (TI_remove_finish n D2 D' T2 H). split; [easy|congruence].
Qed.
Lemma TI_drain f fuel : forall n s s', TI (fst s) -> drain_loop fuel f n s = Ok s' -> TI (fst s') /\ fresh (fst s') = fresh (fst s).
Proof.
  induction fuel as [|fuel IH]; intros n [D k] s' T H; [easy|]. cbn [drain_loop fst snd] in H, T.
  destruct n as [n|]; [|injection H as <-; easy]. destruct (f D n).
  - ok_bind H D1 E. unfold remove_node in E. destruct (TI_remove_rec _ _ _ _ T E) as (T1 & F1).
    destruct (IH _ _ _ (T1 : TI (fst (D1, S k))) H) as (T2 & F2). split; [easy|]. cbn in *. congruence.
  - ok_bind H s1 E.
    assert (H1 : TI (fst s1) /\ fresh (fst s1) = fresh D).
    { destruct (has_children (lk D) n); [apply (IH _ (D, k) _ T E)|injection E as <-; easy]. }
    destruct H1 as (T1 & F1). destruct (IH _ _ _ T1 H). split; [easy|]. cbn. congruence.
Qed.
Lemma TI_deep fuel : forall p n D D', TI D -> p < fresh D -> make_deep_copy fuel p n D = Ok D' -> TI D' /\ fresh D <= fresh D'.
Proof.
  induction fuel as [|fuel IH]; intros p n D D' T Hp H; [easy|]. cbn [make_deep_copy] in H.
  eapply (for_children_inv lk (fun X => TI X /\ fresh D <= fresh X)); [|split; [exact T|apply le_n]|exact H].
  intros c s s' (Ts & Hle) Hb. cbv beta in Hb. ok_bind Hb r E. destruct (copy_node_keeps c s r E) as (Hn & Hl & Hf).
  ok_bind Hb L' E2.
  assert (T1 : TI (snd r)) by (apply (TI_keeps s); [easy|lia|easy]).
  assert (T2 : TI (with_lk L' (snd r))) by (apply (TI_append p (fst r)); [easy|lia|lia|easy]).
  destruct (has_children _ c).
  - apply IH in Hb; [|easy|cbn; lia]. cbn in Hb. split; [easy|lia].
  - injection Hb as <-. split; [easy|cbn; lia].
Qed.

Theorem TI_step o D D' : TI D -> legal o D -> step o D = Ok D' -> TI D' /\ fresh D <= fresh D'.
Proof.
  intros T (Hn & _) H. unfold exists_node in Hn.
  assert (Hk : forall X, keeps D X -> TI X /\ fresh D <= fresh X).
  { intros X (A & B). split; [|lia]. apply (TI_keeps D); [easy|lia|easy]. }
  assert (Ha : forall X, lk X = lk D /\ fresh X = S (fresh D) -> TI X /\ fresh D <= fresh X).
  { intros X (A & B). split; [|lia]. apply (TI_keeps D); [easy|lia|easy]. }
  destruct o; cbn [step handles] in *.
  - ok_bind H r E. injection H as <-. apply Ha. now apply create_element_keeps in E.
  - ok_bind H r E. injection H as <-. apply Ha. now apply create_node_keeps in E.
  - destruct (TI_remove_rec _ _ _ _ T H) as (T1 & F1). split; [easy|]. rewrite F1. apply le_n.
  - ok_bind H r E. injection H as <-. destruct (TI_drain f _ _ (D, 0) r T E) as (T1 & F1). cbn in F1. split; [easy|]. rewrite F1. apply le_n.
  - ok_bind H r E. injection H as <-. apply Ha. now apply copy_node_keeps in E.
  - ok_bind H r E. injection H as <-. unfold copy_node_deep in E. ok_bind E r1 E1. ok_bind E D2 E2. injection E as <-. cbn [snd].
    destruct (copy_node_keeps n D r1 E1) as (A & B & C).
    assert (T1 : TI (snd r1)) by (apply (TI_keeps D); [easy|lia|easy]).
    assert (Hlt : fst r1 < fresh (snd r1)) by (rewrite A, C; apply le_n).
    destruct (TI_deep _ _ _ (snd r1) D2 T1 Hlt E2). split; [easy|lia].
  - unfold on_links in H. ok_bind H L' E. injection H as <-. split; [now apply (TI_detach n)|cbn; lia].
  - unfold on_links in H. ok_bind H L' E. injection H as <-. split; [|cbn; lia].
    apply (TI_append p n); auto with datatypes.
  - unfold on_links in H. ok_bind H L' E. injection H as <-. split; [|cbn; lia].
    apply (TI_prepend p n); auto with datatypes.
  - unfold on_links in H. ok_bind H L' E. injection H as <-. split; [|cbn; lia].
    apply (TI_insert_after a n); auto with datatypes.
  - unfold on_links in H. ok_bind H L' E. injection H as <-. split; [|cbn; lia].
    apply (TI_insert_before a n); auto with datatypes.
  - unfold set_text in H. destruct (is_element D n); [easy|]. injection H as <-. now apply Hk.
  - injection H as <-. now apply Hk.
  - unfold set_id in H. destruct (is_element D n); [|easy]. injection H as <-. now apply Hk.
  - unfold set_tag_name in H. destruct (negb _); [easy|]. destruct (empty_tag t); [easy|]. injection H as <-. now apply Hk.
  - apply Hk. now apply set_attribute_keeps in H.
  - ok_bind H r E. injection H as <-. apply Hk. now apply set_checked_keeps in E.
  - unfold set_attribute_if_none in H. destruct (negb _); [|injection H as <-; now apply Hk]. apply Hk. now apply set_attribute_keeps in H.
  - apply Hk. now apply remove_attribute_keeps in H.
  - injection H as <-. now apply Hk.
Qed.
Lemma TI_drop l : forall D D', TI D -> drop_loop l D = Ok D' -> TI D' /\ fresh D' = fresh D.
Proof.
  induction l as [|x l IH]; intros D D' T H; cbn [drop_loop] in H; [now injection H as <-|].
  cbv zeta in H. ok_bind H L E. set (D1 := modify x _ _) in *.
  assert (T1 : TI D1) by now apply (TI_keeps D).
  destruct (IH (with_lk L D1) D' (TI_detach x D1 L T1 E) H). now split.
Qed.

Definition world_dom (W : world) : dom := mkDom (w_lk W) (w_dt W) (w_fresh W) 0 slab_new.
Theorem mix_trees W : wreach any_nodes W -> TI (world_dom W).
Proof.
  induction 1 as [|W W' _ IH H|W i o W' _ IH (V & HV & Hl) H|W i W' _ IH H].
  - exists empty_forest. split; [apply Rep_empty|]. intros n _. cbn. easy.
  - apply open_result in H. subst W'. now apply (TI_keeps (world_dom W)); [|cbn; lia|].
  - unfold call in H. rewrite HV in H. ok_bind H V' E. injection H as <-.
    pose proof (view_some W i V HV) as (E1 & E2 & E3 & _).
    assert (T : TI V) by (apply (TI_keeps (world_dom W)); cbn; [easy|lia|easy]).
    destruct (TI_step o V V' T Hl E) as (T' & _). now apply (TI_keeps V').
  - unfold drop_doc in H. destruct (view W i) as [V|] eqn:HV; [|easy]. ok_bind H V' E. injection H as <-.
    pose proof (view_some W i V HV) as (E1 & E2 & E3 & _).
    assert (T : TI V) by (apply (TI_keeps (world_dom W)); cbn; [easy|lia|easy]).
    destruct (TI_drop _ V V' T E) as (T' & _). now apply (TI_keeps V').
Qed.

(* ---- links *)
Definition blank_above (D : dom) : Prop := forall n, fresh D <= n ->
  attributes D n = [] /\ linked_nodes D n = [] /\ id_of D n = [] /\ is_element D n = false.
Definition KI (D : dom) : Prop := LInv D /\ blank_above D.

Lemma no_cnt (l : list nid) : (forall x, cnt l x = 0) -> l = [].
Proof. destruct l as [|a l]; [easy|]. intros H. specialize (H a). cbn in H. destruct (Nat.eq_dec a a); [easy|congruence]. Qed.
Lemma KI_frame D D' : KI D -> frame D D' -> LInv D' ->
  (forall n, fresh D <= n -> attributes D' n = [] /\ linked_nodes D' n = []) -> KI D'.
Proof.
  intros (HL & Hb) Hf HL' H. split; [easy|]. intros n Hn. rewrite (fr_fresh _ _ Hf) in Hn. destruct (H n Hn) as (A & B).
  destruct (Hb n Hn) as (_ & _ & C & E). split; [easy|]. split; [easy|].
  unfold is_element. rewrite (fr_id _ _ Hf), (fr_type _ _ Hf). now split.
Qed.
(* attributes are only removed *)
Lemma KI_shrink D D' : KI D -> frame D D' -> LInv D' ->
  (forall n, exists p, attributes D' n = filter p (attributes D n)) -> KI D'.
Proof.
  intros K Hf HL' H. apply (KI_frame D D' K Hf HL'). destruct K as (HL & Hb). intros n Hn. destruct (Hb n Hn) as (A & B & _).
  split.
  - destruct (H n) as (p & ->). now rewrite A.
  - apply no_cnt. intros x. rewrite (li_sym D' HL'). destruct (H x) as (p & ->). pose proof (li_sym D HL x n) as E. rewrite B in E.
    cbn in E. symmetry in E. apply count_links_zero. intros a Ha. apply filter_In in Ha.
    now apply (proj1 (count_links_zero n (attributes D x)) E).
Qed.
Lemma KI_remove_attribute self name D D' : KI D -> remove_attribute self name D = Ok D' -> KI D'.
Proof.
  intros K H. destruct (remove_attribute_spec self name D (proj1 K)) as (D1 & E & Hf & Ha & Hl & HL).
  rewrite H in E. injection E as <-. apply (KI_shrink D); [easy|easy|easy|]. intros n. rewrite Ha.
  destruct (Nat.eqb_spec n self) as [->|]; [now eexists|]. exists (fun _ => true). clear. induction (attributes D n); cbn; congruence.
Qed.
Lemma KI_remove_links n D D' : KI D -> remove_links n D = Ok D' -> KI D'.
Proof.
  intros K H. destruct (remove_links_spec n D (proj1 K)) as (D1 & E & Hf & HL & Ha & Hl).
  rewrite H in E. injection E as <-. apply (KI_shrink D); [easy|easy|easy|]. intros m. rewrite Ha. now eexists.
Qed.
Lemma KI_set_checked self a D r : KI D -> set_attribute_checked self a D = Ok r -> KI (fst r).
Proof.
  intros K H. destruct (is_element D self) eqn:He.
  2:{ unfold set_attribute_checked in H. rewrite He in H. easy. }
  pose proof (set_attribute_checked_spec self a D (proj1 K) He) as Hs.
  destruct (link_error D self a) as [e|] eqn:Ee.
  { rewrite Hs in H. injection H as <-. exact K. }
  destruct Hs as (D' & E & Hf & Ha & Hl & HL). rewrite E in H. injection H as <-. cbn [fst].
  apply (KI_frame D D' K Hf HL). intros n Hn. destruct (proj2 K n Hn) as (E1 & E2 & E3 & E4).
  rewrite Ha, Hl, E1, E2. destruct (Nat.eqb_spec n self) as [->|_]; [congruence|]. split; [easy|].
  assert (Hdel : (match named_target (attributes D self) (a_name a) with
     | Some t => if Nat.eqb n t then del_first self [] else []
     | None => [] end) = @nil nid).
  { destruct (named_target _ _); [|easy]. now destruct (Nat.eqb n n0). }
  rewrite Hdel. destruct (link_target (a_value a)) as [t|] eqn:Et; [|easy].
  destruct (Nat.eqb_spec n t) as [<-|_]; [|easy].
  unfold link_error in Ee. rewrite Et in Ee. unfold has_id in Ee. now rewrite E3 in Ee.
Qed.
Lemma KI_set_attribute self a D D' : KI D -> set_attribute self a D = Ok D' -> KI D'.
Proof.
  intros K H. unfold set_attribute in H. ok_bind H r E. apply (KI_set_checked self a D r K) in E.
  destruct r as [D1 []]; [|easy]. now injection H as <-.
Qed.
(* the data of one existing node changes, but not its attributes and back references *)
Lemma KI_ext D D' : KI D -> fresh D <= fresh D' -> (forall n, attributes D' n = attributes D n) ->
  (forall n, linked_nodes D' n = linked_nodes D n) ->
  (forall n, fresh D' <= n -> id_of D' n = id_of D n /\ is_element D' n = is_element D n) -> KI D'.
Proof.
  intros (HL & Hb) Hle Ha Hl Hi. split; [now apply (LInv_ext D)|]. intros n Hn. rewrite Ha, Hl.
  destruct (Hi n Hn) as (-> & ->). apply Hb. unfold nid in *. lia.
Qed.
Lemma KI_same D D' : KI D -> fresh D <= fresh D' -> dt D' = dt D -> KI D'.
Proof.
  intros K Hle E. apply (KI_ext D D' K Hle); unfold attributes, linked_nodes, id_of, is_element, node_type; now rewrite E.
Qed.
Lemma KI_key n k D : KI D -> KI (modify n (set_key k) D).
Proof.
  intros K. apply (KI_ext D); [easy|apply le_n| | |]; intros m; [| |intros _];
    unfold attributes, linked_nodes, id_of, is_element, node_type, modify, upd; cbn; now destruct (Nat.eqb_spec m n) as [->|].
Qed.
Lemma KI_alloc d D r : KI D -> d_attrs d = [] -> d_linked d = [] -> alloc d D = Ok r -> KI (snd r).
Proof.
  intros K Ha Hl H. pose proof (alloc_keeps d D r H) as (_ & _ & Hf). unfold alloc in H. ok_bind H s E. injection H as <-.
  destruct (proj2 K (fresh D) (le_n _)) as (B1 & B2 & _).
  apply (KI_ext D); [easy|rewrite Hf; apply Nat.le_succ_diag_r| | |]; cbn [snd fresh]; intros m; [| |intros Hm];
    unfold attributes, linked_nodes, id_of, is_element, node_type in *; cbn [dt]; rewrite upd_eq;
    destruct (Nat.eqb_spec m (fresh D)) as [->|]; try easy.
  - cbn. now rewrite Ha, B1.
  - cbn. now rewrite Hl, B2.
  - unfold nid in *. lia.
Qed.
Lemma KI_create_element t D r : KI D -> create_element t D = Ok r -> KI (snd r).
Proof. unfold create_element. destruct (empty_tag t); [easy|]. intros K. now apply KI_alloc. Qed.
Lemma KI_create_node ty s D r : KI D -> create_node ty s D = Ok r -> KI (snd r).
Proof. unfold create_node. destruct (_ || _); [easy|]. intros K. now apply KI_alloc. Qed.
Lemma KI_copy_attrs src e l : forall D D', KI D -> copy_attrs src e l D = Ok D' -> KI D'.
Proof.
  induction l as [|a l IH]; intros D D' K H; cbn in H; [now injection H as <-|]. ok_bind H D1 E. apply (IH D1); [|easy].
  destruct (link_target (a_value a)); [destruct (_ && _); [easy|]|]; now apply (KI_set_attribute e a D).
Qed.
Lemma KI_copy_node n D r : KI D -> copy_node n D = Ok r -> KI (snd r).
Proof.
  intros K. unfold copy_node. destruct (node_type D n); try now apply KI_create_node. intros H. ok_bind H r1 E. ok_bind H D2 E2.
  injection H as <-. apply (KI_create_element _ D r1 K) in E. exact (KI_copy_attrs _ _ _ _ _ E E2).
Qed.
Lemma KI_remove_finish n D D' : KI D -> remove_finish n D = Ok D' -> KI D'.
Proof.
  intros K H. unfold remove_finish in H. ok_bind H L E. cbv zeta in H.
  assert (K1 : KI (modify n (set_key None) (with_lk L D))) by (apply KI_key; now apply (KI_same D)).
  destruct (storage_key (with_lk L D) n); [|now injection H as <-]. ok_bind H r Er. injection H as <-.
  now apply (KI_same (modify n (set_key None) (with_lk L D))).
Qed.
Lemma KI_remove_rec fuel : forall n D D', KI D -> remove_rec fuel n D = Ok D' -> KI D'.
Proof.
  induction fuel as [|fuel IH]; intros n D D' K H; [easy|]. cbn in H. ok_bind H D1 E1. ok_bind H D2 E2.
  apply (KI_remove_finish n D2); [|easy].
  eapply (for_children_inv lk KI); [|exact (KI_remove_links n D D1 K E1)|exact E2].
  intros c s s' Ks Hb. exact (IH c s s' Ks Hb).
Qed.
Lemma KI_drain f fuel : forall n s s', KI (fst s) -> drain_loop fuel f n s = Ok s' -> KI (fst s').
Proof.
  induction fuel as [|fuel IH]; intros n [D k] s' T H; [easy|]. cbn [drain_loop fst snd] in H, T.
  destruct n as [n|]; [|now injection H as <-]. destruct (f D n).
  - ok_bind H D1 E. unfold remove_node in E. pose proof (KI_remove_rec _ _ _ _ T E) as T1.
    exact (IH _ (D1, S k) _ T1 H).
  - ok_bind H s1 E.
    assert (T1 : KI (fst s1)).
    { destruct (has_children (lk D) n); [exact (IH _ (D, k) _ T E)|now injection E as <-]. }
    exact (IH _ _ _ T1 H).
Qed.
Lemma KI_deep fuel : forall p n D D', KI D -> make_deep_copy fuel p n D = Ok D' -> KI D'.
Proof.
  induction fuel as [|fuel IH]; intros p n D D' T H; [easy|]. cbn [make_deep_copy] in H.
  eapply (for_children_inv lk KI); [|exact T|exact H].
  intros c s s' Ts Hb. cbv beta in Hb. ok_bind Hb r E. ok_bind Hb L' E2.
  assert (T2 : KI (with_lk L' (snd r))) by (apply (KI_same (snd r)); [exact (KI_copy_node c s r Ts E)|apply le_n|easy]).
  destruct (has_children _ c); [exact (IH _ _ _ _ T2 Hb)|now injection Hb as <-].
Qed.
Lemma KI_edit n name a D : KI D -> link_target (a_value a) = None ->
  (forall old, attrs_get (attributes D n) name = Some old -> link_target (a_value old) = None) ->
  (a_name a = name \/ has_attribute D n (a_name a) = false) -> KI (attribute_mut n name a D).
Proof.
  intros K Ha Ho Hn. pose proof (proj1 K) as I.
  assert (Hc : forall x b, count_links b (attributes (attribute_mut n name a D) x) = count_links b (attributes D x)).
  { intros x b. rewrite edit_attrs. destruct (Nat.eqb_spec x n) as [->|]; [|easy]. now apply count_attrs_edit. }
  apply (KI_frame D _ K (edit_frame n name a D)).
  - split.
    + intros m. rewrite edit_attrs. destruct (Nat.eqb_spec m n) as [->|]; [|apply I].
      destruct Hn as [Hn|Hn]; [rewrite names_attrs_edit by easy; apply I|].
      apply NoDup_attrs_edit; [apply I|]. now apply contains_false.
    + intros x b. rewrite edit_linked, Hc. apply I.
    + intros x b. rewrite !Hc. apply I.
  - intros m Hm. destruct (proj2 K m Hm) as (E1 & E2 & _). rewrite edit_attrs, edit_linked, E2.
    split; [|easy]. destruct (Nat.eqb_spec m n) as [->|]; [|easy]. now rewrite E1.
Qed.
(* fields other than attributes, back references and the kind of the node *)
Lemma KI_field n g D : KI D -> n < fresh D -> (forall d, d_attrs (g d) = d_attrs d /\ d_linked (g d) = d_linked d) -> KI (modify n g D).
Proof.
  intros K Hn Hg. apply (KI_ext D); [easy|apply le_n| | |]; cbn [fresh modify]; intros m; [| |intros Hm];
    unfold attributes, linked_nodes, id_of, is_element, node_type, modify, upd; cbn; destruct (Nat.eqb_spec m n) as [->|]; try easy;
    try apply Hg. change (fresh (modify n g D)) with (fresh D) in Hm. unfold nid in *. lia.
Qed.

Theorem KI_step o D D' : KI D -> legal o D -> step o D = Ok D' -> KI D'.
Proof.
  intros K (Hn & Hp) H. unfold exists_node in Hn.
  destruct o; cbn [step handles] in *.
  - ok_bind H r E. injection H as <-. now apply (KI_create_element t D).
  - ok_bind H r E. injection H as <-. now apply (KI_create_node ty s D).
  - exact (KI_remove_rec _ _ _ _ K H).
  - ok_bind H r E. injection H as <-. exact (KI_drain f _ _ (D, 0) r K E).
  - ok_bind H r E. injection H as <-. now apply (KI_copy_node n D).
  - ok_bind H r E. injection H as <-. unfold copy_node_deep in E. ok_bind E r1 E1. ok_bind E D2 E2. injection E as <-. cbn [snd].
    exact (KI_deep _ _ _ _ _ (KI_copy_node n D r1 K E1) E2).
  - unfold on_links in H. ok_bind H L' E. injection H as <-. now apply (KI_same D).
  - unfold on_links in H. ok_bind H L' E. injection H as <-. now apply (KI_same D).
  - unfold on_links in H. ok_bind H L' E. injection H as <-. now apply (KI_same D).
  - unfold on_links in H. ok_bind H L' E. injection H as <-. now apply (KI_same D).
  - unfold on_links in H. ok_bind H L' E. injection H as <-. now apply (KI_same D).
  - unfold set_text in H. destruct (is_element D n); [easy|]. injection H as <-. apply KI_field; auto with datatypes.
  - injection H as <-. apply KI_field; auto with datatypes.
  - unfold set_id in H. destruct (is_element D n); [|easy]. injection H as <-. apply KI_field; auto with datatypes.
  - unfold set_tag_name in H. destruct (negb _); [easy|]. destruct (empty_tag t); [easy|]. injection H as <-. apply KI_field; auto with datatypes.
  - now apply (KI_set_attribute n a D).
  - ok_bind H r E. injection H as <-. now apply (KI_set_checked n a D).
  - unfold set_attribute_if_none in H. destruct (negb _); [|now injection H as <-]. now apply (KI_set_attribute n a D).
  - now apply (KI_remove_attribute n name D).
  - injection H as <-. destruct Hp as (P1 & P2 & P3). now apply KI_edit.
Qed.

Lemma replace_none {A} i (d : A) : forall l, (forall j, nth_error (replace_at i (Some d) l) j <> Some None) ->
  nth_error l i <> Some None -> forall j, nth_error l j <> Some None.
Proof.
  intros l H Hi j Hj. destruct (Nat.eq_dec i j) as [->|]; [easy|]. apply (H j). now rewrite nth_replace_other.
Qed.
Theorem mix_links W : wreach any_nodes W -> nothing_dropped W -> KI (world_dom W).
Proof.
  induction 1 as [|W W' _ IH H|W i o W' _ IH (V & HV & Hl) H|W i W' _ IH H]; intros Hd.
  - split; [|easy]. split; [intros n; constructor|easy|easy].
  - apply open_result in H. subst W'.
    assert (K : KI (world_dom W)).
    { apply IH. intros j Hj. apply (Hd j). cbn. rewrite nth_error_app1; [easy|]. apply nth_error_Some. now rewrite Hj. }
    assert (E : exists r, alloc (new_data NRoot (QName []) []) (world_dom W) = Ok r) by now eexists.
    destruct E as (r & E). pose proof (KI_alloc (new_data NRoot (QName []) []) _ r K eq_refl eq_refl E) as K'. cbn in E. injection E as <-.
    now apply (KI_same _ _ K').
  - unfold call in H. rewrite HV in H. ok_bind H V' E. injection H as <-.
    pose proof (view_some W i V HV) as (E1 & E2 & E3 & E4).
    assert (K : KI V).
    { apply (KI_same (world_dom W)); [|cbn; rewrite E3; apply le_n|easy]. apply IH. unfold nothing_dropped. apply (replace_none i (droot V', store V')); [exact Hd|congruence]. }
    pose proof (KI_step o V V' K Hl E) as K'. now apply (KI_same V').
  - exfalso. unfold drop_doc in H. destruct (view W i) as [V|] eqn:HV; [|easy]. ok_bind H V' E. injection H as <-.
    pose proof (view_some W i V HV) as (_ & _ & _ & E4). apply (Hd i). cbn. apply nth_replace_same. apply nth_error_Some. now rewrite E4.
Qed.

(* ---- removing a node whose storage may be another document's *)
Lemma slab_remove_get s k n : slab_get s k = Some n -> exists s', slab_remove s k = Ok (n, s') /\ slab_get s' k = None /\
  forall j, j <> k -> slab_get s' j = slab_get s j.
Proof.
  unfold slab_get, slab_remove. destruct (nth_error (s_entries s) k) as [[m|]|] eqn:E; try easy. intros [= ->].
  eexists. split; [reflexivity|]. cbn [s_entries]. split.
  - rewrite nth_replace_same; [easy|]. apply nth_error_Some. congruence.
  - intros j Hj. rewrite nth_replace_other by congruence. reflexivity.
Qed.
Lemma slab_remove_none s k : slab_get s k = None -> slab_remove s k = Panic PSlabKey.
Proof. unfold slab_get, slab_remove. now destruct (nth_error (s_entries s) k) as [[m|]|]. Qed.

Lemma remove_leaf D n : TI D -> KI D -> first_child (lk D) n = None ->
  match storage_key D n with
  | None => exists D', remove_node n D = Ok D' /\ store D' = store D
  | Some k => match slab_get (store D) k with
              | None => remove_node n D = Panic PSlabKey
              | Some _ => exists D', remove_node n D = Ok D' /\ slab_get (store D') k = None /\
                  (forall j, j <> k -> slab_get (store D') j = slab_get (store D) j) /\
                  storage_key D' n = None /\ forall m, m <> n -> storage_key D' m = storage_key D m
              end
  end.
Proof.
  intros (F & R & _) (HL & _) Hc.
  destruct (remove_links_spec n D HL) as (D1 & E1 & Hf & _). destruct Hf.
  assert (E2 : for_children lk (S (fresh D)) (remove_rec (S (fresh D))) (children (lk D1) n) D1 = Ok D1).
  { cbn [for_children]. replace (children_next (lk D1) (children (lk D1) n)) with (@None nid, children (lk D1) n); [easy|].
    unfold children. rewrite fr_lk. unfold last_child, first_child in *. rewrite Hc, (r_last _ _ R).
    pose proof (r_first _ _ R n) as Hfc. rewrite Hc in Hfc. destruct (children_of F n); [reflexivity|discriminate]. }
  assert (Hp : parent_of F n <> Some n).
  { intros Hp. pose proof (wf_parent F (r_wf _ _ R) n n Hp) as E. pose proof (wf_self F (r_wf _ _ R) n) as Hin. rewrite E in Hin.
    pose proof (r_first _ _ R n) as Hfc. unfold first_child in Hc. rewrite Hc in Hfc. destruct (children_of F n); [easy|discriminate]. }
  destruct (detach_nil_ok n (lk D) F R Hp) as (L' & E3 & _).
  assert (Er : remove_node n D = remove_finish n D1).
  { unfold remove_node, enough. change (remove_rec (S (S (fresh D))) n D) with
      (X <- remove_links n D ;; X <- for_children lk (S (fresh D)) (remove_rec (S (fresh D))) (children (lk X) n) X ;; remove_finish n X).
    rewrite E1. cbn [bind]. rewrite E2. reflexivity. }
  rewrite Er. unfold remove_finish. rewrite fr_lk, E3. cbn [bind]. cbv zeta.
  change (storage_key (with_lk L' D1) n) with (storage_key D1 n). rewrite fr_key.
  change (store (modify n (set_key None) (with_lk L' D1))) with (store D1). rewrite fr_store.
  assert (Hk : forall m s, storage_key (with_store s (modify n (set_key None) (with_lk L' D1))) m = if Nat.eqb m n then None else storage_key D m).
  { intros m s. rewrite <- fr_key. unfold storage_key, modify, upd. cbn. now destruct (Nat.eqb m n). }
  destruct (storage_key D n) as [k|].
  - destruct (slab_get (store D) k) as [m|] eqn:Eg.
    + destruct (slab_remove_get _ _ _ Eg) as (s' & Es & G1 & G2). rewrite Es. cbn [bind snd]. eexists. split; [reflexivity|].
      split; [exact G1|]. split; [exact G2|]. split; [rewrite Hk, Nat.eqb_refl; easy|]. intros x Hx. rewrite Hk. destruct (Nat.eqb_spec x n); [easy|reflexivity].
    + now rewrite (slab_remove_none _ _ Eg).
  - eexists. split; [reflexivity|]. cbn. exact fr_store.
Qed.

(* ---- for the property file *)
Theorem mix_shows W i V : wreach any_nodes W -> view W i = Some V -> exists F, shows (lk V) F.
Proof.
  intros H HV. destruct (mix_trees W H) as (F & R & _). exists F. apply shows_Rep.
  destruct (view_some W i V HV) as (-> & _). exact R.
Qed.
Lemma mix_KI W i V : wreach any_nodes W -> nothing_dropped W -> view W i = Some V -> KI V.
Proof.
  intros H Hd HV. destruct (view_some W i V HV) as (_ & E2 & E3 & _). apply (KI_same (world_dom W)); [now apply mix_links| |easy].
  rewrite E3. apply le_n.
Qed.
Lemma mix_TI W i V : wreach any_nodes W -> view W i = Some V -> TI V.
Proof.
  intros H HV. destruct (view_some W i V HV) as (E1 & _ & E3 & _). apply (TI_keeps (world_dom W)); [easy| |now apply mix_trees].
  rewrite E3. apply le_n.
Qed.
