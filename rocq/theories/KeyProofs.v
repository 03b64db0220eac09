(* A removed node never comes back. *)
From Coq Require Import List Bool PeanoNat NArith Lia.
From Verif Require Import Base Ids Links Tree Iter ForestSpec ListFacts TreeProofs ForestFacts
  Data Attrs Slab NodeApi Doc AttrFacts LinkProofs AttrSpec DocSpec RemoveProofs History InvProofs
  HistoryProofs Loops Raw RawSpec RawProofs.
Import ListNotations.

Definition gone_stay (D D' : dom) : Prop :=
  fresh D <= fresh D' /\ forall n, n < fresh D -> storage_key D n = None -> storage_key D' n = None.
Lemma gs_refl D : gone_stay D D.
Proof. split; auto. Qed.
Lemma gs_trans D1 D2 D3 : gone_stay D1 D2 -> gone_stay D2 D3 -> gone_stay D1 D3.
Proof. intros (A & B) (A' & B'). split; [lia|]. intros n Hn H. apply B'; [lia|]. now apply B. Qed.
Lemma gs_slight D D' : slight D D' -> gone_stay D D'.
Proof.
  intros H. apply slight_same in H. split; [rewrite (sb_fresh _ _ H); apply le_n|]. intros n _. now rewrite (sb_key _ _ H).
Qed.
Lemma gs_lk L D : gone_stay D (with_lk L D).
Proof. split; [apply le_n|auto]. Qed.
Lemma gs_modify n g D : (forall d, d_key d = None -> d_key (g d) = None) -> gone_stay D (modify n g D).
Proof.
  intros Hg. split; [apply le_n|]. intros m _ H. unfold storage_key, modify, upd in *. cbn. destruct (Nat.eqb_spec m n) as [->|]; auto.
Qed.
Lemma gs_alloc d D r : alloc d D = Ok r -> gone_stay D (snd r).
Proof.
  unfold alloc. intros H. ok_bind H s E. injection H as <-. cbn. split; [cbn; lia|]. intros n Hn Hk. unfold storage_key in *. cbn. rewrite upd_eq.
  destruct (Nat.eqb_spec n (fresh D)) as [->|]; [unfold nid in *; lia|easy].
Qed.
Lemma gs_finish n D D' : remove_finish n D = Ok D' -> gone_stay D D'.
Proof.
  unfold remove_finish. intros H. ok_bind H L E. cbv zeta in H. apply (gs_trans D (with_lk L D)); [apply gs_lk|].
  destruct (storage_key (with_lk L D) n); [ok_bind H s Es|]; injection H as <-; [|apply gs_modify; easy].
  apply (gs_trans _ (modify n (set_key None) (with_lk L D))); [apply gs_modify; easy|]. split; [apply le_n|auto].
Qed.
Lemma gs_for_children body fuel it D D' : (forall c s s', body c s = Ok s' -> gone_stay s s') -> for_children lk fuel body it D = Ok D' -> gone_stay D D'.
Proof.
  intros Hb H. eapply (for_children_inv lk (fun X => gone_stay D X)); [|apply gs_refl|exact H]. intros c s s' Hs Hx. apply (gs_trans D s); [easy|]. now apply (Hb c).
Qed.
Lemma gs_rec fuel : forall n D D', remove_rec fuel n D = Ok D' -> gone_stay D D'.
Proof.
  induction fuel as [|fuel IH]; intros n D D' H; [easy|]. cbn [remove_rec] in H. ok_bind H D1 E1. ok_bind H D2 E2.
  apply (gs_trans D D1); [now apply gs_slight, (remove_links_slight n)|]. apply (gs_trans D1 D2); [now apply gs_for_children in E2|now apply gs_finish in H].
Qed.
Lemma gs_drain f fuel : forall n s s', drain_loop fuel f n s = Ok s' -> gone_stay (fst s) (fst s').
Proof.
  induction fuel as [|fuel IH]; intros n [D k] s' H; [easy|]. cbn [drain_loop fst snd] in *. destruct n as [n|]; [|injection H as <-; apply gs_refl].
  destruct (f D n).
  - ok_bind H D1 E. apply IH in H. unfold remove_node in E. apply gs_rec in E. now apply (gs_trans D D1).
  - ok_bind H s1 E. apply IH in H. apply (gs_trans D (fst s1)); [|easy]. destruct (has_children _ n); [now apply IH in E|injection E as <-; apply gs_refl].
Qed.
Lemma gs_create_element t D r : create_element t D = Ok r -> gone_stay D (snd r).
Proof. unfold create_element. destruct (empty_tag t); [easy|]. apply gs_alloc. Qed.
Lemma gs_create_node ty s D r : create_node ty s D = Ok r -> gone_stay D (snd r).
Proof. unfold create_node. destruct (_ || _); [easy|]. apply gs_alloc. Qed.
Lemma gs_copy n D r : copy_node n D = Ok r -> gone_stay D (snd r).
Proof.
  unfold copy_node. destruct (node_type D n); try now apply gs_create_node. intros H. ok_bind H r1 E. ok_bind H D2 E2. injection H as <-.
  apply gs_create_element in E. apply (gs_trans D (snd r1)); [easy|]. apply (copy_attrs_slight n) in E2. now apply gs_slight.
Qed.
Lemma gs_deep fuel : forall p n D D', make_deep_copy fuel p n D = Ok D' -> gone_stay D D'.
Proof.
  induction fuel as [|fuel IH]; intros p n D D' H; [easy|]. cbn [make_deep_copy] in H. apply gs_for_children in H; [easy|].
  intros c s s' Hb. cbv beta in Hb. ok_bind Hb r E. apply gs_copy in E. ok_bind Hb L' E2. apply (gs_trans s (snd r)); [easy|].
  apply (gs_trans _ (with_lk L' (snd r))); [apply gs_lk|]. destruct (has_children _ c); [now apply IH in Hb|injection Hb as <-; apply gs_refl].
Qed.
Theorem gone_step o D D' : step o D = Ok D' -> gone_stay D D'.
Proof.
  intros H. assert (Hl : forall f, on_links f D = Ok D' -> gone_stay D D').
  { intros f E. unfold on_links in E. ok_bind E L' E'. injection E as <-. apply gs_lk. }
  destruct o; cbn [step] in H; try (now apply Hl in H).
  - ok_bind H r E. injection H as <-. now apply (gs_create_element t).
  - ok_bind H r E. injection H as <-. now apply (gs_create_node ty s).
  - unfold remove_node in H. now apply gs_rec in H.
  - ok_bind H r E. injection H as <-. unfold drain in E. now apply gs_drain in E.
  - ok_bind H r E. injection H as <-. now apply (gs_copy n).
  - ok_bind H r E. injection H as <-. unfold copy_node_deep in E. ok_bind E r1 E1. ok_bind E D2 E2. injection E as <-. cbn [snd].
    apply (gs_trans D (snd r1)); [now apply (gs_copy n)|now apply gs_deep in E2].
  - unfold set_text in H. destruct (is_element D n); [easy|]. injection H as <-. now apply gs_modify.
  - injection H as <-. now apply gs_modify.
  - unfold set_id in H. destruct (is_element D n); [|easy]. injection H as <-. now apply gs_modify.
  - unfold set_tag_name in H. destruct (negb _); [easy|]. destruct (empty_tag t); [easy|]. injection H as <-. now apply gs_modify.
  - now apply gs_slight, (set_attribute_slight n a).
  - ok_bind H r E. injection H as <-. now apply gs_slight, (set_checked_slight n a).
  - unfold set_attribute_if_none in H. destruct (negb _); [|injection H as <-; apply gs_refl]. now apply gs_slight, (set_attribute_slight n a).
  - now apply gs_slight, (remove_attribute_slight n name).
  - injection H as <-. now apply gs_modify.
Qed.
Theorem gone_calls P D D' : calls P D D' -> gone_stay D D'.
Proof. induction 1 as [|D o D1 D2 _ IH _ _ _ _ H]; [apply gs_refl|]. apply (gs_trans D D1); [exact IH|now apply (gone_step o)]. Qed.
