(* Proofs about name lookup. *)
From Coq Require Import List Bool NArith PeanoNat Lia.
From Verif Require Import Base Ids NameTables Names AttrFacts.
Import ListNotations.
Open Scope N_scope.

(* ---- lookup never panics *)
Lemma land_mask x : N.land x (N.shiftl 1 21 - 1) < 2 ^ 21.
Proof.
  replace (N.shiftl 1 21 - 1) with (N.ones 21) by reflexivity. rewrite N.land_ones. apply N.mod_lt. discriminate.
Qed.

(* a table whose displacements stay below 2^32 for all 21 bit factors *)
Definition small (disps : list (N * N)) : bool :=
  forallb (fun d => (2 ^ 21 * fst d + snd d + 2 ^ 21 <? two32)) disps.

Lemma index_ok {A} (l : list A) i : i < N.of_nat (length l) -> exists a, index l i = Ok a /\ In a l.
Proof.
  intros H. unfold index. destruct (nth_error l (N.to_nat i)) eqn:E.
  - exists a. split; [easy|]. now apply nth_error_In in E.
  - apply nth_error_None in E. lia.
Qed.

Lemma get_index_ok h disps len : small disps = true -> disps <> [] -> 0 < len ->
  exists i, get_index h disps len = Ok i /\ i < len.
Proof.
  intros Hs Hd Hl. unfold get_index, split.
  pose proof (land_mask (N.shiftr h 21)) as B1. pose proof (land_mask (N.shiftr h 42)) as B2.
  set (f1 := N.land (N.shiftr h 21) _) in *. set (f2 := N.land (N.shiftr h 42) _) in *.
  set (g := N.land h _) in *.
  assert (Hn : N.of_nat (length disps) <> 0) by (destruct disps; cbn in *; [easy|lia]).
  apply N.eqb_neq in Hn as Hn'. rewrite Hn'. destruct (N.eqb_spec len 0); [lia|]. cbn [orb].
  destruct (index_ok disps (g mod N.of_nat (length disps))) as ([d1 d2] & E & Hin).
  { apply N.mod_lt. exact Hn. }
  rewrite E. cbn [bind].
  unfold small in Hs. rewrite forallb_forall in Hs. specialize (Hs _ Hin). cbn [fst snd] in Hs.
  apply N.ltb_lt in Hs. assert (Hm : f1 * d1 <= 2 ^ 21 * d1) by (apply N.mul_le_mono_r; lia).
  unfold displace, u32_mul, u32_add.
  destruct (N.ltb_spec (f1 * d1) two32); [|lia]. cbn [bind].
  destruct (N.ltb_spec (d2 + f1 * d1) two32); [|lia]. cbn [bind].
  destruct (N.ltb_spec (d2 + f1 * d1 + f2) two32); [|lia]. cbn [bind].
  eexists. split; [reflexivity|]. apply N.mod_lt. lia.
Qed.

Lemma map_get_ok {V} key disps (entries : list (str * V)) s : small disps = true -> disps <> [] -> entries <> [] ->
  exists o, map_get key disps entries s = Ok o /\ (forall v, o = Some v -> In (s, v) entries).
Proof.
  intros Hs Hd He. unfold map_get.
  destruct (get_index_ok (hash s key) disps (N.of_nat (length entries)) Hs Hd) as (i & -> & Hi).
  { destruct entries; cbn in *; [easy|lia]. }
  cbn [bind]. destruct (index_ok entries i Hi) as ([k v] & -> & Hin). cbn [bind fst snd].
  eexists. split; [reflexivity|]. intros w H. destruct (str_eqb k s) eqn:E; [|easy]. apply str_eqb_eq in E. congruence.
Qed.

Lemma map_key_sound {V} eqb (entries : list (str * V)) v s : (forall a b, eqb a b = true -> a = b) ->
  map_key eqb entries v = Ok s -> In (s, v) entries.
Proof.
  intros He H. unfold map_key in H. destruct (find _ entries) as [[k w]|] eqn:E; [|easy]. injection H as <-.
  apply find_some in E. destruct E as (Hin & E). apply He in E. cbn in *. now subst.
Qed.

(* ---- the tables *)
Definition ok_str_eqb (r : res str) (s : str) : bool := match r with Ok x => str_eqb x s | _ => false end.
Lemma ok_str_eqb_eq r s : ok_str_eqb r s = true -> r = Ok s.
Proof. destruct r; try easy. cbn. intros H. apply str_eqb_eq in H. congruence. Qed.

Lemma elements_small : small elements_disps = true.
Proof. vm_compute. reflexivity. Qed.
Lemma attributes_small : small attributes_disps = true.
Proof. vm_compute. reflexivity. Qed.

Definition is_elem (e : eid) (r : res (option eid)) : bool :=
  match r with Ok (Some x) => eid_eqb x e | _ => false end.
Definition is_attr (a : aid) (r : res (option aid)) : bool :=
  match r with Ok (Some x) => aid_eqb x a | _ => false end.

Definition elements_check (e : eid) : bool :=
  match element_as_str e with Ok s => is_elem e (element_from_str s) | _ => false end.
Definition attributes_check (a : aid) : bool :=
  match attribute_as_str a with Ok s => is_attr a (attribute_from_str s) | _ => false end.

Lemma elements_all : forallb elements_check all_eids = true.
Proof. vm_compute. reflexivity. Qed.
Lemma attributes_all : forallb attributes_check all_aids = true.
Proof. vm_compute. reflexivity. Qed.
Lemma elements_back : forallb (fun kv => ok_str_eqb (element_as_str (snd kv)) (fst kv)) elements_entries = true.
Proof. vm_compute. reflexivity. Qed.
Lemma attributes_back : forallb (fun kv => ok_str_eqb (attribute_as_str (snd kv)) (fst kv)) attributes_entries = true.
Proof. vm_compute. reflexivity. Qed.

Lemma all_eids_complete e : In e all_eids.
Proof. destruct e; cbn; tauto. Qed.
Lemma all_aids_complete a : In a all_aids.
Proof.
  assert (H : nth_error all_aids (N.to_nat (aid_idx a)) = Some a) by (destruct a; vm_compute; reflexivity).
  now apply nth_error_In in H.
Qed.

Lemma element_round e : exists s, element_as_str e = Ok s /\ element_from_str s = Ok (Some e).
Proof.
  pose proof elements_all as H. rewrite forallb_forall in H. specialize (H e (all_eids_complete e)).
  unfold elements_check in H. destruct (element_as_str e) as [s| |]; try easy. exists s. split; [easy|].
  unfold is_elem in H. destruct (element_from_str s) as [[x|]| |]; try easy. apply eid_eqb_eq in H. congruence.
Qed.
Lemma attribute_round a : exists s, attribute_as_str a = Ok s /\ attribute_from_str s = Ok (Some a).
Proof.
  pose proof attributes_all as H. rewrite forallb_forall in H. specialize (H a (all_aids_complete a)).
  unfold attributes_check in H. destruct (attribute_as_str a) as [s| |]; try easy. exists s. split; [easy|].
  unfold is_attr in H. destruct (attribute_from_str s) as [[x|]| |]; try easy. apply aid_eqb_eq in H. congruence.
Qed.

Lemma element_lookup s : exists o, element_from_str s = Ok o /\ (forall e, o = Some e -> element_as_str e = Ok s).
Proof.
  destruct (map_get_ok elements_key elements_disps elements_entries s elements_small) as (o & E & H); try easy.
  exists o. split; [easy|]. intros e He. apply H in He. pose proof elements_back as B. rewrite forallb_forall in B.
  apply B in He. now apply ok_str_eqb_eq in He.
Qed.
Lemma attribute_lookup s : exists o, attribute_from_str s = Ok o /\ (forall a, o = Some a -> attribute_as_str a = Ok s).
Proof.
  destruct (map_get_ok attributes_key attributes_disps attributes_entries s attributes_small) as (o & E & H); try easy.
  exists o. split; [easy|]. intros e He. apply H in He. pose proof attributes_back as B. rewrite forallb_forall in B.
  apply B in He. now apply ok_str_eqb_eq in He.
Qed.

Lemma element_bijection : (forall e s, element_as_str e = Ok s <-> element_from_str s = Ok (Some e)) /\
  (forall e1 e2 s, element_as_str e1 = Ok s -> element_as_str e2 = Ok s -> e1 = e2).
Proof.
  assert (A : forall e s, element_as_str e = Ok s -> element_from_str s = Ok (Some e)).
  { intros e s H. destruct (element_round e) as (s' & E1 & E2). congruence. }
  split.
  - intros e s. split; [apply A|]. intros H. destruct (element_lookup s) as (o & E & Ho). rewrite H in E.
    injection E as <-. now apply Ho.
  - intros e1 e2 s H1 H2. apply A in H1, H2. congruence.
Qed.
Lemma attribute_bijection : (forall a s, attribute_as_str a = Ok s <-> attribute_from_str s = Ok (Some a)) /\
  (forall a1 a2 s, attribute_as_str a1 = Ok s -> attribute_as_str a2 = Ok s -> a1 = a2).
Proof.
  assert (A : forall a s, attribute_as_str a = Ok s -> attribute_from_str s = Ok (Some a)).
  { intros e s H. destruct (attribute_round e) as (s' & E1 & E2). congruence. }
  split.
  - intros a s. split; [apply A|]. intros H. destruct (attribute_lookup s) as (o & E & Ho). rewrite H in E.
    injection E as <-. now apply Ho.
  - intros e1 e2 s H1 H2. apply A in H1, H2. congruence.
Qed.
Lemma lookup_total : (forall s, (exists o, element_from_str s = Ok o) /\ (exists o, attribute_from_str s = Ok o)) /\
  (forall e, exists s, element_as_str e = Ok s) /\ (forall a, exists s, attribute_as_str a = Ok s).
Proof.
  split; [|split].
  - intros s. destruct (element_lookup s) as (o & E & _). destruct (attribute_lookup s) as (o' & E' & _). eauto.
  - intros e. destruct (element_round e) as (s & E & _). eauto.
  - intros e. destruct (attribute_round e) as (s & E & _). eauto.
Qed.
