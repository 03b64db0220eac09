(* The storage: keys and slots stay in bijection. *)
From Coq Require Import List Bool PeanoNat Lia.
From Verif Require Import Base Attrs Slab.
Import ListNotations.

(* the free list starting at [next] *)
Fixpoint free_path (E : list entry) (next : nat) (fl : list nat) : Prop :=
  match fl with
  | [] => next = length E
  | k :: t => next = k /\ exists nx, nth_error E k = Some (Vacant nx) /\ free_path E nx t
  end.

Record slab_ok (s : slab) (key : nid -> option nat) : Prop := {
  so_fwd  : forall n k, key n = Some k -> slab_get s k = Some n;
  so_bwd  : forall n k, slab_get s k = Some n -> key n = Some k;
  so_free : exists fl, NoDup fl /\ free_path (s_entries s) (s_next s) fl
}.

Lemma slab_ok_ext s key key' : (forall n, key' n = key n) -> slab_ok s key -> slab_ok s key'.
Proof. intros E []. split; try easy; intros; rewrite E in *; auto. Qed.

Lemma nth_replace {A} i (x : A) l j : i < length l ->
  nth_error (replace_at i x l) j = if Nat.eqb j i then Some x else nth_error l j.
Proof.
  revert i j. induction l as [|y l IH]; cbn; intros i j Hi; [lia|].
  destruct i as [|i].
  - destruct j; reflexivity.
  - destruct j as [|j]; [reflexivity|]. cbn. apply IH. lia.
Qed.
Lemma length_replace {A} i (x : A) l : length (replace_at i x l) = length l.
Proof. revert i. induction l; intros [|i]; cbn; try easy. now rewrite IHl. Qed.

Lemma free_path_vacant E next fl k : free_path E next fl -> In k fl -> exists nx, nth_error E k = Some (Vacant nx).
Proof.
  revert next. induction fl as [|x fl IH]; cbn; [easy|].
  intros next (-> & nx & Hx & Hp) [->|Hk]; [now exists nx|]. now apply (IH nx).
Qed.

Lemma free_path_replace E next fl k e : free_path E next fl -> ~ In k fl -> k < length E ->
  free_path (replace_at k e E) next fl.
Proof.
  revert next. induction fl as [|x fl IH]; cbn.
  - intros next -> _ _. now rewrite length_replace.
  - intros next (-> & nx & Hx & Hp) Hk Hl. split; [easy|]. exists nx. split.
    + rewrite nth_replace by easy. destruct (Nat.eqb_spec x k) as [->|]; [tauto|easy].
    + apply IH; try easy. tauto.
Qed.

Theorem slab_insert_spec s key n : slab_ok s key -> key n = None ->
  exists k s', slab_insert s n = Ok (k, s') /\ slab_get s k = None /\
    slab_ok s' (fun m => if Nat.eqb m n then Some k else key m).
Proof.
  intros [Hf Hb (fl & Hnd & Hp)] Hn. unfold slab_insert.
  destruct (Nat.eqb_spec (s_next s) (length (s_entries s))) as [E|E].
  - do 2 eexists. split; [reflexivity|].
    assert (Hnone : slab_get s (s_next s) = None).
    { unfold slab_get. replace (nth_error _ _) with (@None entry); [easy|].
      symmetry. apply nth_error_None. lia. }
    assert (Hget : forall k, slab_get (mkSlab (s_entries s ++ [Occupied n]) (S (s_next s)) (S (s_len s))) k =
      if Nat.eqb k (s_next s) then Some n else slab_get s k).
    { intros k. unfold slab_get. cbn. destruct (Nat.eqb_spec k (s_next s)) as [->|Hk].
      - rewrite nth_error_app2 by lia. rewrite E, Nat.sub_diag. reflexivity.
      - destruct (Nat.lt_ge_cases k (length (s_entries s))).
        + now rewrite nth_error_app1.
        + rewrite !(proj2 (nth_error_None _ _)); [easy|lia|]. rewrite app_length. cbn. lia. }
    split; [exact Hnone|]. split.
    + intros m k. rewrite Hget. destruct (Nat.eqb_spec m n) as [->|Hm].
      * intros [= <-]. now rewrite Nat.eqb_refl.
      * intros Hk. apply Hf in Hk as Hg. destruct (Nat.eqb_spec k (s_next s)); [congruence|easy].
    + intros m k. rewrite Hget. destruct (Nat.eqb_spec k (s_next s)) as [->|Hk].
      * intros [= ->]. now rewrite Nat.eqb_refl.
      * intros Hg. apply Hb in Hg. destruct (Nat.eqb_spec m n); congruence.
    + exists []. split; [constructor|]. cbn. rewrite app_length. cbn. lia.
  - destruct fl as [|k fl]; cbn in Hp; [easy|].
    destruct Hp as (Hk & nx & Hx & Hp). rewrite Hk, Hx.
    assert (Hl : k < length (s_entries s)) by (apply nth_error_Some; congruence).
    inversion Hnd; subst.
    do 2 eexists. split; [reflexivity|].
    assert (Hnone : slab_get s (s_next s) = None) by (unfold slab_get; now rewrite Hx).
    assert (Hget : forall k, slab_get (mkSlab (replace_at (s_next s) (Occupied n) (s_entries s)) nx (S (s_len s))) k =
      if Nat.eqb k (s_next s) then Some n else slab_get s k).
    { intros k. unfold slab_get. cbn. rewrite nth_replace by easy. now destruct (Nat.eqb k (s_next s)). }
    split; [exact Hnone|]. split.
    + intros m k. rewrite Hget. destruct (Nat.eqb_spec m n) as [->|Hm].
      * intros [= <-]. now rewrite Nat.eqb_refl.
      * intros Hk2. apply Hf in Hk2 as Hg. destruct (Nat.eqb_spec k (s_next s)); [congruence|easy].
    + intros m k. rewrite Hget. destruct (Nat.eqb_spec k (s_next s)) as [->|Hk2].
      * intros [= ->]. now rewrite Nat.eqb_refl.
      * intros Hg. apply Hb in Hg. destruct (Nat.eqb_spec m n); congruence.
    + exists fl. split; [easy|]. now apply free_path_replace.
Qed.

Theorem slab_remove_spec s key n k : slab_ok s key -> key n = Some k ->
  exists s', slab_remove s k = Ok (n, s') /\
    slab_ok s' (fun m => if Nat.eqb m n then None else key m) /\
    slab_get s' k = None.
Proof.
  intros [Hf Hb (fl & Hnd & Hp)] Hn. apply Hf in Hn as Hg. unfold slab_remove.
  assert (Hx : nth_error (s_entries s) k = Some (Occupied n)).
  { unfold slab_get in Hg. destruct (nth_error (s_entries s) k) as [[]|]; congruence. }
  rewrite Hx. eexists. split; [reflexivity|].
  assert (Hl : k < length (s_entries s)) by (apply nth_error_Some; congruence).
  assert (Hget : forall j, slab_get (mkSlab (replace_at k (Vacant (s_next s)) (s_entries s)) k (pred (s_len s))) j =
    if Nat.eqb j k then None else slab_get s j).
  { intros j. unfold slab_get. cbn. rewrite nth_replace by easy. now destruct (Nat.eqb j k). }
  split; [|now rewrite Hget, Nat.eqb_refl]. split.
  - intros m j. rewrite Hget. destruct (Nat.eqb_spec m n) as [->|Hm]; [easy|].
    intros Hj. apply Hf in Hj as Hgj. destruct (Nat.eqb_spec j k); [congruence|easy].
  - intros m j. rewrite Hget. destruct (Nat.eqb_spec j k) as [->|Hj]; [easy|].
    intros Hgj. apply Hb in Hgj. destruct (Nat.eqb_spec m n); congruence.
  - exists (k :: fl). assert (Hk : ~ In k fl).
    { intros Hin. destruct (free_path_vacant _ _ _ _ Hp Hin) as (nx & Hv). congruence. }
    split; [now constructor|]. cbn. split; [easy|]. exists (s_next s). split.
    + rewrite nth_replace by easy. now rewrite Nat.eqb_refl.
    + now apply free_path_replace.
Qed.

Lemma slab_new_ok : slab_ok slab_new (fun _ => None).
Proof.
  split; try easy.
  - intros n [|k]; easy.
  - exists []. split; [constructor|reflexivity].
Qed.

(* iteration order of the storage *)
Lemma in_slab_iter s n : In n (slab_iter s) <-> exists k, slab_get s k = Some n.
Proof.
  unfold slab_iter, slab_get. induction (s_entries s) as [|e E IH]; cbn.
  - split; [easy|]. intros ([|k] & H); easy.
  - split.
    + intros H. destruct e as [m|v]; cbn in H.
      * destruct H as [->|H]; [now exists 0|]. apply IH in H. destruct H as (k & H). now exists (S k).
      * apply IH in H. destruct H as (k & H). now exists (S k).
    + intros ([|k] & H); cbn in H.
      * destruct e; [|easy]. injection H as ->. now left.
      * assert (In n (occupied E)) by (apply IH; now exists k). destruct e; [now right|easy].
Qed.
