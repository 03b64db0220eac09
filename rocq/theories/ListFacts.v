(* Lemmas about the list vocabulary of ForestSpec. *)
From Coq Require Import List Bool PeanoNat Lia.
From Verif Require Import Base ForestSpec.
Import ListNotations.

Arguments rm : simpl never.
Arguments pred_in : simpl never.
Arguments last_error : simpl never.
Arguments mem : simpl never.

Lemma rm_cons n x l : rm n (x :: l) = if Nat.eqb x n then rm n l else x :: rm n l.
Proof. unfold rm. cbn. now destruct (Nat.eqb x n). Qed.

Lemma upd_same {A} (f : nid -> A) n v : upd f n v n = v.
Proof. unfold upd. now rewrite Nat.eqb_refl. Qed.

Lemma upd_other {A} (f : nid -> A) n m v : m <> n -> upd f n v m = f m.
Proof. unfold upd. intros H. apply Nat.eqb_neq in H. now rewrite H. Qed.

Lemma upd_eq {A} (f : nid -> A) n m v : upd f n v m = if Nat.eqb m n then v else f m.
Proof. reflexivity. Qed.

Lemma mem_In n l : mem n l = true <-> In n l.
Proof.
  unfold mem. rewrite existsb_exists. split.
  - intros (x & Hx & He). apply Nat.eqb_eq in He. now subst.
  - intros H. exists n. split; [easy|apply Nat.eqb_refl].
Qed.

Lemma mem_not_In n l : mem n l = false <-> ~ In n l.
Proof. rewrite <- mem_In. destruct (mem n l); split; congruence. Qed.

Lemma mem_cons n x l : mem n (x :: l) = Nat.eqb n x || mem n l.
Proof. reflexivity. Qed.

Lemma mem_app n l1 l2 : mem n (l1 ++ l2) = mem n l1 || mem n l2.
Proof. unfold mem. apply existsb_app. Qed.

Lemma onid_eqb_eq a b : onid_eqb a b = true <-> a = b.
Proof.
  destruct a, b; cbn; try (split; congruence).
  rewrite Nat.eqb_eq. split; congruence.
Qed.

(* ---- rm *)
Lemma in_rm x n l : In x (rm n l) <-> In x l /\ x <> n.
Proof.
  unfold rm. rewrite filter_In, negb_true_iff, Nat.eqb_neq. tauto.
Qed.

Lemma rm_notin n l : ~ In n l -> rm n l = l.
Proof.
  unfold rm. induction l as [|x l IH]; cbn; intros H; [easy|].
  destruct (Nat.eqb_spec x n); cbn.
  - exfalso. apply H. now left.
  - rewrite IH; [easy|tauto].
Qed.

Lemma NoDup_rm n l : NoDup l -> NoDup (rm n l).
Proof. apply NoDup_filter. Qed.

Lemma rm_app n l1 l2 : rm n (l1 ++ l2) = rm n l1 ++ rm n l2.
Proof. apply filter_app. Qed.

Lemma rm_rev n l : rm n (rev l) = rev (rm n l).
Proof.
  induction l as [|x l IH]; cbn; [easy|].
  rewrite rm_app, IH, !rm_cons. destruct (Nat.eqb x n); cbn; [now rewrite app_nil_r|easy].
Qed.

Lemma rm_rm n m l : rm n (rm m l) = rm m (rm n l).
Proof.
  unfold rm. induction l as [|x l IH]; cbn; [easy|].
  destruct (Nat.eqb x m) eqn:E1, (Nat.eqb x n) eqn:E2; cbn; rewrite ?E1, ?E2; cbn;
    rewrite IH; easy.
Qed.

Lemma rm_idem n l : rm n (rm n l) = rm n l.
Proof. apply rm_notin. rewrite in_rm. tauto. Qed.

(* ---- successor and predecessor *)
Lemma succ_in_In n l x : succ_in n l = Some x -> In n l /\ In x l.
Proof.
  induction l as [|y l IH]; cbn; [easy|].
  destruct (Nat.eqb_spec y n) as [->|].
  - destruct l; cbn; [easy|]. intros [= ->]. tauto.
  - intros H. apply IH in H. tauto.
Qed.

Lemma succ_in_notin n l : ~ In n l -> succ_in n l = None.
Proof.
  induction l as [|y l IH]; cbn; [easy|]. intros H.
  destruct (Nat.eqb_spec y n) as [->|]; [exfalso; tauto|]. apply IH. tauto.
Qed.

Lemma succ_in_app_l n l1 l2 : In n l1 ->
  succ_in n (l1 ++ l2) =
  match succ_in n l1 with
  | Some x => Some x
  | None => hd_error l2
  end.
Proof.
  induction l1 as [|y l IH]; cbn; [easy|]. intros H.
  destruct (Nat.eqb_spec y n) as [->|Hn].
  - destruct l; cbn; [reflexivity|reflexivity].
  - destruct H as [->|H]; [easy|]. now apply IH.
Qed.

Lemma succ_in_app_r n l1 l2 : ~ In n l1 -> succ_in n (l1 ++ l2) = succ_in n l2.
Proof.
  induction l1 as [|y l IH]; cbn; [easy|]. intros H.
  destruct (Nat.eqb_spec y n) as [->|Hn]; [exfalso; tauto|]. apply IH. tauto.
Qed.

Lemma pred_in_In n l x : pred_in n l = Some x -> In n l /\ In x l.
Proof. unfold pred_in. intros H. apply succ_in_In in H. now rewrite <- !in_rev in H. Qed.

Lemma succ_in_split n l x :
  succ_in n l = Some x -> exists l1 l2, l = l1 ++ n :: x :: l2.
Proof.
  induction l as [|y l IH]; cbn; [easy|].
  destruct (Nat.eqb_spec y n) as [->|].
  - destruct l as [|z l]; cbn; [easy|]. intros [= ->]. now exists [], l.
  - intros H. destruct (IH H) as (l1 & l2 & ->). now exists (y :: l1), l2.
Qed.

Lemma split_succ l1 n x l2 : NoDup (l1 ++ n :: x :: l2) -> succ_in n (l1 ++ n :: x :: l2) = Some x.
Proof.
  intros H. rewrite succ_in_app_r.
  - cbn. now rewrite Nat.eqb_refl.
  - apply NoDup_remove_2 in H. rewrite in_app_iff in H. tauto.
Qed.

Lemma succ_pred a b l : NoDup l -> succ_in a l = Some b <-> pred_in b l = Some a.
Proof.
  intros Hl. unfold pred_in. split; intros H.
  - destruct (succ_in_split _ _ _ H) as (l1 & l2 & ->).
    replace (rev (l1 ++ a :: b :: l2)) with (rev l2 ++ b :: a :: rev l1).
    + apply split_succ.
      replace (rev l2 ++ b :: a :: rev l1) with (rev (l1 ++ a :: b :: l2)); [now apply NoDup_rev|].
      rewrite rev_app_distr. cbn. now rewrite <- !app_assoc.
    + rewrite rev_app_distr. cbn. now rewrite <- !app_assoc.
  - destruct (succ_in_split _ _ _ H) as (l1 & l2 & E).
    assert (E2 : l = rev l2 ++ a :: b :: rev l1).
    { rewrite <- (rev_involutive l), E, rev_app_distr. cbn. now rewrite <- !app_assoc. }
    rewrite E2 in *. now apply split_succ.
Qed.

Lemma succ_to_pred a b l : NoDup l -> succ_in a l = Some b -> pred_in b l = Some a.
Proof. intros H. apply succ_pred; easy. Qed.

Lemma pred_to_succ a b l : NoDup l -> pred_in b l = Some a -> succ_in a l = Some b.
Proof. intros H. apply succ_pred; easy. Qed.

Lemma succ_in_neq n l x : NoDup l -> succ_in n l = Some x -> x <> n.
Proof.
  intros Hl H. destruct (succ_in_split _ _ _ H) as (l1 & l2 & ->).
  apply NoDup_remove_2 in Hl. intros ->. apply Hl. rewrite in_app_iff. cbn. tauto.
Qed.

Lemma pred_in_neq n l x : NoDup l -> pred_in n l = Some x -> x <> n.
Proof. intros Hl. apply succ_in_neq. now apply NoDup_rev. Qed.

Lemma succ_none_last n l : NoDup l -> In n l -> succ_in n l = None <-> last_error l = Some n.
Proof.
  intros Hl Hn. unfold last_error.
  destruct (in_split _ _ Hn) as (l1 & l2 & ->).
  rewrite rev_app_distr. cbn. rewrite succ_in_app_r.
  2:{ apply NoDup_remove_2 in Hl. rewrite in_app_iff in Hl. tauto. }
  cbn. rewrite Nat.eqb_refl.
  destruct l2 as [|y l2]; cbn; [tauto|]. split; [easy|].
  rewrite <- app_assoc. intros H. exfalso.
  apply NoDup_remove_2 in Hl. apply Hl. rewrite in_app_iff. right.
  change (y :: l2) with ([y] ++ l2). rewrite in_app_iff.
  destruct (rev l2) as [|z t] eqn:E; cbn in H; injection H as ->.
  - left. now left.
  - right. rewrite in_rev, E. now left.
Qed.

Lemma pred_none_hd n l : NoDup l -> In n l -> pred_in n l = None <-> hd_error l = Some n.
Proof.
  intros Hl Hn. unfold pred_in.
  rewrite (succ_none_last n (rev l)).
  - unfold last_error. now rewrite rev_involutive.
  - now apply NoDup_rev.
  - now rewrite <- in_rev.
Qed.

Lemma hd_error_In (l : list nid) x : hd_error l = Some x -> In x l.
Proof. destruct l; cbn; [easy|]. intros [= ->]. now left. Qed.

Lemma last_error_In l x : last_error l = Some x -> In x l.
Proof. unfold last_error. intros H. apply hd_error_In in H. now rewrite <- in_rev in H. Qed.

Lemma hd_error_rm n l : NoDup l ->
  hd_error (rm n l) = if onid_eqb (hd_error l) (Some n) then succ_in n l else hd_error l.
Proof.
  intros Hl. destruct l as [|x l]; [easy|]. rewrite rm_cons. cbn.
  destruct (Nat.eqb_spec x n) as [->|]; cbn; [|easy].
  inversion Hl; subst. now rewrite rm_notin.
Qed.

Lemma succ_in_rm m n l : NoDup l -> m <> n ->
  succ_in m (rm n l) = if onid_eqb (succ_in m l) (Some n) then succ_in n l else succ_in m l.
Proof.
  intros Hl Hmn. induction l as [|x l IH]; [easy|].
  inversion Hl as [|? ? Hx Hl']; subst. rewrite rm_cons. cbn.
  destruct (Nat.eqb_spec x n) as [->|Hxn]; cbn.
  - rewrite rm_notin by easy. destruct (Nat.eqb_spec n m) as [->|]; [easy|].
    destruct (onid_eqb (succ_in m l) (Some n)) eqn:E; [|easy].
    apply onid_eqb_eq in E. apply succ_in_In in E. tauto.
  - destruct (Nat.eqb_spec x m) as [->|Hxm].
    + rewrite hd_error_rm by easy. reflexivity.
    + rewrite IH by easy. reflexivity.
Qed.

Lemma last_error_rm n l : NoDup l ->
  last_error (rm n l) = if onid_eqb (last_error l) (Some n) then pred_in n l else last_error l.
Proof.
  intros Hl. unfold last_error, pred_in. rewrite <- rm_rev. apply hd_error_rm. now apply NoDup_rev.
Qed.

Lemma pred_in_rm m n l : NoDup l -> m <> n ->
  pred_in m (rm n l) = if onid_eqb (pred_in m l) (Some n) then pred_in n l else pred_in m l.
Proof.
  intros Hl Hmn. unfold pred_in. rewrite <- rm_rev. apply succ_in_rm; [now apply NoDup_rev|easy].
Qed.

(* ---- insertion *)
Lemma last_error_snoc l x : last_error (l ++ [x]) = Some x.
Proof. unfold last_error. now rewrite rev_app_distr. Qed.

Lemma ins_after_split l1 a l2 b : ~ In a l1 -> ins_after a b (l1 ++ a :: l2) = l1 ++ a :: b :: l2.
Proof.
  induction l1 as [|x l1 IH]; cbn; intros H.
  - now rewrite Nat.eqb_refl.
  - destruct (Nat.eqb_spec x a) as [->|]; [exfalso; tauto|]. f_equal. apply IH. tauto.
Qed.

Lemma ins_before_split l1 a l2 b : ~ In a l1 -> ins_before a b (l1 ++ a :: l2) = l1 ++ b :: a :: l2.
Proof.
  induction l1 as [|x l1 IH]; cbn; intros H.
  - now rewrite Nat.eqb_refl.
  - destruct (Nat.eqb_spec x a) as [->|]; [exfalso; tauto|]. f_equal. apply IH. tauto.
Qed.

Lemma in_split_first a (l : list nid) : In a l -> exists l1 l2, l = l1 ++ a :: l2 /\ ~ In a l1.
Proof.
  induction l as [|x l IH]; cbn; [easy|].
  intros H. destruct (Nat.eq_dec x a) as [->|Hn].
  - now exists [], l.
  - destruct H as [|H]; [easy|]. destruct (IH H) as (l1 & l2 & -> & Hl1).
    exists (x :: l1), l2. split; [easy|]. cbn. tauto.
Qed.

Lemma ins_after_before_rev a b l : In a l -> NoDup l -> ins_before a b l = rev (ins_after a b (rev l)).
Proof.
  intros Ha Hl. destruct (in_split _ _ Ha) as (l1 & l2 & ->).
  pose proof (NoDup_remove_2 _ _ _ Hl) as Hn. rewrite in_app_iff in Hn.
  rewrite ins_before_split by tauto.
  rewrite rev_app_distr. cbn. rewrite <- app_assoc. cbn.
  rewrite ins_after_split by (rewrite <- in_rev; tauto).
  rewrite rev_app_distr. cbn. now rewrite <- !app_assoc, !rev_involutive.
Qed.

Lemma in_ins_after x a b l : In a l -> In x (ins_after a b l) <-> x = b \/ In x l.
Proof.
  intros H. destruct (in_split_first _ _ H) as (l1 & l2 & -> & Ha).
  rewrite ins_after_split by easy. rewrite !in_app_iff. cbn. intuition.
Qed.

Lemma in_ins_before x a b l : In a l -> In x (ins_before a b l) <-> x = b \/ In x l.
Proof.
  intros H. destruct (in_split_first _ _ H) as (l1 & l2 & -> & Ha).
  rewrite ins_before_split by easy. rewrite !in_app_iff. cbn. intuition.
Qed.

Lemma NoDup_insert (b : nid) l1 l2 : NoDup (l1 ++ l2) -> ~ In b (l1 ++ l2) -> NoDup (l1 ++ b :: l2).
Proof. intros H1 H2. apply NoDup_Add with (a := b) (l := l1 ++ l2); [apply Add_app|]. now split. Qed.

Lemma NoDup_ins_after a b l : NoDup l -> In a l -> ~ In b l -> NoDup (ins_after a b l).
Proof.
  intros Hl Ha Hb. destruct (in_split_first _ _ Ha) as (l1 & l2 & -> & Ha1).
  rewrite ins_after_split by easy.
  change (l1 ++ a :: b :: l2) with (l1 ++ [a] ++ b :: l2). rewrite app_assoc.
  apply NoDup_insert; rewrite <- app_assoc; easy.
Qed.

Lemma NoDup_ins_before a b l : NoDup l -> In a l -> ~ In b l -> NoDup (ins_before a b l).
Proof.
  intros Hl Ha Hb. destruct (in_split_first _ _ Ha) as (l1 & l2 & -> & Ha1).
  rewrite ins_before_split by easy. now apply NoDup_insert.
Qed.

Lemma hd_error_ins_after a b l : hd_error (ins_after a b l) = hd_error l.
Proof. destruct l as [|x l]; cbn; [easy|]. now destruct (Nat.eqb x a). Qed.

Lemma succ_in_ins_after m a b l : NoDup l -> In a l -> ~ In b l ->
  succ_in m (ins_after a b l) =
  if Nat.eqb m a then Some b else if Nat.eqb m b then succ_in a l else succ_in m l.
Proof.
  intros Hl Ha Hb. destruct (in_split_first _ _ Ha) as (l1 & l2 & -> & Ha1).
  rewrite ins_after_split by easy.
  assert (Hb1 : ~ In b l1 /\ b <> a /\ ~ In b l2) by (rewrite in_app_iff in Hb; cbn in Hb; intuition congruence).
  destruct (Nat.eqb_spec m a) as [->|Hma].
  { rewrite succ_in_app_r by easy. cbn. now rewrite Nat.eqb_refl. }
  destruct (Nat.eqb_spec m b) as [->|Hmb].
  { rewrite !succ_in_app_r by tauto. cbn.
    rewrite !Nat.eqb_refl. destruct (Nat.eqb_spec a b); [exfalso; intuition|]. reflexivity. }
  destruct (in_dec Nat.eq_dec m l1) as [Hm|Hm].
  - rewrite !succ_in_app_l by easy. reflexivity.
  - rewrite !succ_in_app_r by easy. cbn.
    destruct (Nat.eqb_spec a m); [congruence|]. destruct (Nat.eqb_spec b m); [congruence|]. easy.
Qed.

Lemma pred_in_ins_after m a b l : NoDup l -> In a l -> ~ In b l ->
  pred_in m (ins_after a b l) =
  if Nat.eqb m b then Some a
  else if onid_eqb (succ_in a l) (Some m) then Some b else pred_in m l.
Proof.
  intros Hl Ha Hb.
  assert (Hl' : NoDup (ins_after a b l)) by now apply NoDup_ins_after.
  assert (Hab : a <> b) by (intros E; subst; tauto).
  destruct (Nat.eqb_spec m b) as [->|Hmb].
  { apply succ_to_pred; [easy|]. rewrite succ_in_ins_after by easy. now rewrite Nat.eqb_refl. }
  destruct (onid_eqb (succ_in a l) (Some m)) eqn:E.
  { apply onid_eqb_eq in E. apply succ_to_pred; [easy|]. rewrite succ_in_ins_after by easy.
    rewrite ?Nat.eqb_refl. destruct (Nat.eqb_spec b a); [congruence|]. now rewrite E. }
  destruct (pred_in m l) as [q|] eqn:Eq.
  - apply succ_to_pred; [easy|]. apply pred_to_succ in Eq; [|easy].
    rewrite succ_in_ins_after by easy.
    destruct (Nat.eqb_spec q a) as [->|].
    { rewrite Eq in E. cbn in E. now rewrite Nat.eqb_refl in E. }
    destruct (Nat.eqb_spec q b) as [->|]; [|easy].
    apply succ_in_In in Eq. tauto.
  - destruct (pred_in m (ins_after a b l)) as [q|] eqn:Eq2; [|easy].
    exfalso. apply (pred_to_succ _ _ _ Hl') in Eq2. rewrite succ_in_ins_after in Eq2 by easy.
    destruct (Nat.eqb_spec q a) as [Hq|]; [subst q|]; [congruence|].
    destruct (Nat.eqb_spec q b) as [Hq|]; [subst q|].
    + rewrite Eq2 in E. cbn in E. now rewrite Nat.eqb_refl in E.
    + apply (succ_to_pred _ _ _ Hl) in Eq2. congruence.
Qed.

Lemma last_error_ins_after a b l : NoDup l -> In a l -> ~ In b l ->
  last_error (ins_after a b l) =
  match succ_in a l with None => Some b | Some _ => last_error l end.
Proof.
  intros Hl Ha Hb. destruct (in_split_first _ _ Ha) as (l1 & l2 & -> & Ha1).
  rewrite ins_after_split by easy. rewrite succ_in_app_r by easy. cbn. rewrite Nat.eqb_refl.
  unfold last_error. rewrite !rev_app_distr. cbn. rewrite <- !app_assoc. cbn.
  destruct l2 as [|y l2]; cbn; [easy|]. rewrite <- !app_assoc. cbn. now destruct (rev l2).
Qed.

Lemma succ_in_ins_before m a b l : NoDup l -> In a l -> ~ In b l ->
  succ_in m (ins_before a b l) =
  if Nat.eqb m b then Some a
  else if onid_eqb (pred_in a l) (Some m) then Some b else succ_in m l.
Proof.
  intros Hl Ha Hb. rewrite ins_after_before_rev by easy.
  rewrite <- (rev_involutive l) at 3.
  change (succ_in m (rev (ins_after a b (rev l)))) with (pred_in m (ins_after a b (rev l))).
  rewrite pred_in_ins_after; [|now apply NoDup_rev|now rewrite <- in_rev|now rewrite <- in_rev].
  reflexivity.
Qed.

Lemma pred_in_ins_before m a b l : NoDup l -> In a l -> ~ In b l ->
  pred_in m (ins_before a b l) =
  if Nat.eqb m a then Some b else if Nat.eqb m b then pred_in a l else pred_in m l.
Proof.
  intros Hl Ha Hb. unfold pred_in. rewrite ins_after_before_rev, rev_involutive by easy.
  rewrite succ_in_ins_after; [|now apply NoDup_rev|now rewrite <- in_rev|now rewrite <- in_rev].
  reflexivity.
Qed.

Lemma hd_error_ins_before a b l : NoDup l -> In a l -> ~ In b l ->
  hd_error (ins_before a b l) =
  match pred_in a l with None => Some b | Some _ => hd_error l end.
Proof.
  intros Hl Ha Hb. rewrite ins_after_before_rev by easy.
  change (hd_error (rev (ins_after a b (rev l)))) with (last_error (ins_after a b (rev l))).
  rewrite last_error_ins_after; [|now apply NoDup_rev|now rewrite <- in_rev|now rewrite <- in_rev].
  unfold pred_in, last_error. now rewrite rev_involutive.
Qed.

Lemma last_error_ins_before a b l : NoDup l -> In a l -> last_error (ins_before a b l) = last_error l.
Proof.
  intros Hl Ha. rewrite ins_after_before_rev by easy. unfold last_error. rewrite rev_involutive.
  apply hd_error_ins_after.
Qed.

Lemma succ_in_snoc m l x : NoDup l -> ~ In x l ->
  succ_in m (l ++ [x]) = if onid_eqb (last_error l) (Some m) then Some x else succ_in m l.
Proof.
  intros Hl Hx. destruct (in_dec Nat.eq_dec m l) as [Hm|Hm].
  - rewrite succ_in_app_l by easy. cbn.
    destruct (onid_eqb (last_error l) (Some m)) eqn:E.
    + apply onid_eqb_eq in E. apply succ_none_last in E; [|easy..]. now rewrite E.
    + destruct (succ_in m l) eqn:E2; [easy|]. apply succ_none_last in E2; [|easy..].
      rewrite E2 in E. cbn in E. now rewrite Nat.eqb_refl in E.
  - rewrite succ_in_app_r by easy. cbn. rewrite (succ_in_notin m l) by easy.
    destruct (onid_eqb (last_error l) (Some m)) eqn:E.
    + apply onid_eqb_eq in E. apply last_error_In in E. tauto.
    + now destruct (Nat.eqb x m).
Qed.

Lemma pred_in_snoc m l x : ~ In x l ->
  pred_in m (l ++ [x]) = if Nat.eqb m x then last_error l else pred_in m l.
Proof.
  intros Hx. unfold pred_in. rewrite rev_app_distr. cbn. rewrite Nat.eqb_sym. reflexivity.
Qed.

Lemma succ_in_cons m l x :
  succ_in m (x :: l) = if Nat.eqb m x then hd_error l else succ_in m l.
Proof. cbn. now rewrite Nat.eqb_sym. Qed.

Lemma pred_in_cons m l x : NoDup l -> ~ In x l ->
  pred_in m (x :: l) = if onid_eqb (hd_error l) (Some m) then Some x else pred_in m l.
Proof.
  intros Hl Hx. unfold pred_in. cbn. rewrite succ_in_snoc.
  - unfold last_error. now rewrite rev_involutive.
  - now apply NoDup_rev.
  - now rewrite <- in_rev.
Qed.

Lemma last_error_cons l x : last_error (x :: l) = match last_error l with Some y => Some y | None => Some x end.
Proof. unfold last_error. cbn. destruct (rev l); reflexivity. Qed.

Lemma hd_error_snoc l (x : nid) : hd_error (l ++ [x]) = match hd_error l with Some y => Some y | None => Some x end.
Proof. destruct l; reflexivity. Qed.

Lemma last_error_none l : last_error l = None <-> l = [].
Proof.
  unfold last_error. split; [|now intros ->].
  intros H. destruct (rev l) eqn:E; [|easy]. rewrite <- (rev_involutive l), E. easy.
Qed.

Lemma hd_error_none (l : list nid) : hd_error l = None <-> l = [].
Proof. now destruct l. Qed.
