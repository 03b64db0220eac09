(* Lemmas about names, attribute lists and link counts. *)
From Coq Require Import List Bool PeanoNat NArith Lia.
From Verif Require Import Base Ids Data Attrs.
Import ListNotations.

Lemma str_eqb_eq a b : str_eqb a b = true <-> a = b.
Proof.
  revert b. induction a as [|x a IH]; intros [|y b]; cbn; try easy.
  rewrite andb_true_iff, N.eqb_eq, IH. split; [intros [-> ->]; easy|intros [= -> ->]; easy].
Qed.

Lemma eid_nth x : nth_error all_eids (N.to_nat (eid_idx x)) = Some x.
Proof. destruct x; reflexivity. Qed.
Lemma aid_nth x : nth_error all_aids (N.to_nat (aid_idx x)) = Some x.
Proof. destruct x; reflexivity. Qed.

Lemma eid_idx_inj a b : eid_idx a = eid_idx b -> a = b.
Proof. intros H. pose proof (eid_nth a) as Ha. rewrite H, eid_nth in Ha. congruence. Qed.
Lemma aid_idx_inj a b : aid_idx a = aid_idx b -> a = b.
Proof. intros H. pose proof (aid_nth a) as Ha. rewrite H, aid_nth in Ha. congruence. Qed.

Lemma eid_eqb_eq a b : eid_eqb a b = true <-> a = b.
Proof. unfold eid_eqb. rewrite N.eqb_eq. split; [apply eid_idx_inj|congruence]. Qed.
Lemma aid_eqb_eq a b : aid_eqb a b = true <-> a = b.
Proof. unfold aid_eqb. rewrite N.eqb_eq. split; [apply aid_idx_inj|congruence]. Qed.

Lemma in_all_eids x : In x all_eids.
Proof. eapply nth_error_In, eid_nth. Qed.
Lemma in_all_aids x : In x all_aids.
Proof. eapply nth_error_In, aid_nth. Qed.

Lemma aname_eqb_eq a b : aname_eqb a b = true <-> a = b.
Proof.
  destruct a, b; cbn; try easy.
  - rewrite aid_eqb_eq. split; congruence.
  - rewrite str_eqb_eq. split; congruence.
Qed.
Lemma aname_eqb_refl a : aname_eqb a a = true.
Proof. now apply aname_eqb_eq. Qed.
Lemma aname_eqb_neq a b : aname_eqb a b = false <-> a <> b.
Proof. rewrite <- aname_eqb_eq. destruct (aname_eqb a b); split; congruence. Qed.
Lemma aname_eqb_sym a b : aname_eqb a b = aname_eqb b a.
Proof.
  destruct (aname_eqb a b) eqn:E.
  - apply aname_eqb_eq in E. subst. now rewrite aname_eqb_refl.
  - symmetry. apply aname_eqb_neq. apply aname_eqb_neq in E. congruence.
Qed.
Lemma aname_eqb_spec a b : reflect (a = b) (aname_eqb a b).
Proof.
  destruct (aname_eqb a b) eqn:E; constructor.
  - now apply aname_eqb_eq.
  - now apply aname_eqb_neq.
Qed.

Lemma tag_eqb_eq a b : tag_eqb a b = true <-> a = b.
Proof.
  destruct a, b; cbn; try easy.
  - rewrite eid_eqb_eq. split; congruence.
  - rewrite str_eqb_eq. split; congruence.
Qed.

Lemma ntype_eqb_eq a b : ntype_eqb a b = true <-> a = b.
Proof. destruct a, b; cbn; split; congruence. Qed.

(* ---- the list without one name *)
Definition drop_name (name : aname) (l : list attr) : list attr :=
  filter (fun a => negb (aname_eqb (a_name a) name)) l.

Lemma in_drop_name name a l : In a (drop_name name l) <-> In a l /\ a_name a <> name.
Proof. unfold drop_name. rewrite filter_In, negb_true_iff, aname_eqb_neq. tauto. Qed.

Lemma drop_name_none name l : ~ In name (map a_name l) -> drop_name name l = l.
Proof.
  induction l as [|a l IH]; cbn; [easy|]. intros H.
  destruct (aname_eqb_spec (a_name a) name); [tauto|]. cbn. f_equal. tauto.
Qed.

Lemma contains_iff l name : attrs_contains l name = true <-> In name (map a_name l).
Proof.
  unfold attrs_contains. rewrite existsb_exists, in_map_iff. split.
  - intros (a & H & E). apply aname_eqb_eq in E. now exists a.
  - intros (a & E & H). exists a. split; [easy|]. now apply aname_eqb_eq.
Qed.

Lemma contains_false l name : attrs_contains l name = false <-> ~ In name (map a_name l).
Proof. rewrite <- contains_iff. destruct (attrs_contains l name); split; congruence. Qed.

Lemma get_value_spec l name : NoDup (map a_name l) -> forall v,
  attrs_get_value l name = Some v <-> In (mkAttr name v) l.
Proof.
  induction l as [|a l IH]; cbn; [easy|]. intros Hn v. inversion Hn; subst.
  destruct (aname_eqb_spec (a_name a) name) as [E|E].
  - subst name. split.
    + intros [= <-]. left. now destruct a.
    + intros [H|H]; [apply (f_equal a_value) in H; cbn in H; congruence|]. exfalso. apply H1. now apply (in_map a_name) in H.
  - rewrite IH by easy. split; [tauto|]. intros [->|H]; [easy|easy].
Qed.

Lemma get_value_none l name : attrs_get_value l name = None <-> ~ In name (map a_name l).
Proof.
  induction l as [|a l IH]; cbn; [easy|].
  destruct (aname_eqb_spec (a_name a) name) as [E|E].
  - split; [easy|]. intros H. tauto.
  - rewrite IH. tauto.
Qed.

Lemma get_value_get l name : attrs_get_value l name = option_map a_value (attrs_get l name).
Proof. induction l as [|a l IH]; cbn; [easy|]. now destruct (aname_eqb _ _). Qed.

Lemma get_name l name a : attrs_get l name = Some a -> a_name a = name /\ In a l.
Proof.
  induction l as [|b l IH]; cbn; [easy|].
  destruct (aname_eqb_spec (a_name b) name) as [E|E].
  - intros [= ->]. tauto.
  - intros H. apply IH in H. tauto.
Qed.

Lemma position_none {A} (p : A -> bool) l : position p l = None <-> (forall x, In x l -> p x = false).
Proof.
  induction l as [|x l IH]; cbn; [easy|]. destruct (p x) eqn:E.
  - split; [easy|]. intros H. rewrite (H x) in E; [easy|tauto].
  - destruct (position p l) eqn:Ep; cbn.
    + split; [easy|]. intros H. exfalso. assert (None = Some n :> option nat); [|easy].
      symmetry. apply IH. intros y Hy. apply H. tauto.
    + split; [|easy]. intros _ y [->|Hy]; [easy|]. now apply IH.
Qed.

Lemma attrs_remove_drop l name : NoDup (map a_name l) -> attrs_remove l name = drop_name name l.
Proof.
  unfold attrs_remove. induction l as [|a l IH]; cbn; [easy|]. intros Hn. inversion Hn; subst.
  destruct (aname_eqb_spec (a_name a) name) as [E|E]; cbn.
  - subst name. symmetry. now apply drop_name_none.
  - specialize (IH H2). destruct (position _ l) as [i|] eqn:Ep; cbn; f_equal; exact IH.
Qed.

Lemma attrs_insert_new l a : ~ In (a_name a) (map a_name l) -> attrs_insert l a = l ++ [a].
Proof.
  intros H. unfold attrs_insert.
  replace (position _ l) with (@None nat); [easy|]. symmetry. apply position_none.
  intros x Hx. apply aname_eqb_neq. intros E. apply H. rewrite <- E. now apply in_map.
Qed.

Lemma NoDup_drop_name name l : NoDup (map a_name l) -> NoDup (map a_name (drop_name name l)).
Proof.
  induction l as [|a l IH]; cbn; [constructor|]. intros Hn. inversion Hn; subst.
  destruct (negb _); cbn; [|tauto]. constructor; [|tauto].
  intros H. apply H1. apply in_map_iff in H. destruct H as (b & E & Hb).
  apply in_drop_name in Hb. rewrite <- E. apply in_map. tauto.
Qed.

Lemma drop_name_notin name l : ~ In name (map a_name (drop_name name l)).
Proof.
  intros H. apply in_map_iff in H. destruct H as (b & E & Hb). apply in_drop_name in Hb. tauto.
Qed.

Lemma NoDup_filter_names (p : attr -> bool) l : NoDup (map a_name l) -> NoDup (map a_name (filter p l)).
Proof.
  induction l as [|a l IH]; cbn; [constructor|]. intros Hn. inversion Hn; subst.
  destruct (p a); cbn; [|tauto]. constructor; [|tauto].
  intros H. apply H1. apply in_map_iff in H. destruct H as (b & E & Hb).
  apply filter_In in Hb. rewrite <- E. apply in_map. tauto.
Qed.

(* with unique names an attribute is determined by its name *)
Lemma unique_attr l a b : NoDup (map a_name l) -> In a l -> In b l -> a_name a = a_name b -> a = b.
Proof.
  induction l as [|x l IH]; cbn; [easy|]. intros Hn. inversion Hn; subst.
  intros [->|Ha] [->|Hb] E; try easy.
  - exfalso. apply H1. rewrite E. now apply in_map.
  - exfalso. apply H1. rewrite <- E. now apply in_map.
  - now apply IH.
Qed.

(* ---- links *)
Definition links_to (b : nid) (a : attr) : bool :=
  match link_target (a_value a) with Some t => Nat.eqb t b | None => false end.

Lemma links_to_iff b a : links_to b a = true <-> link_target (a_value a) = Some b.
Proof.
  unfold links_to. destruct (link_target (a_value a)); [|easy]. rewrite Nat.eqb_eq. split; congruence.
Qed.

Lemma is_link_container_target v : is_link_container v = match link_target v with Some _ => true | None => false end.
Proof. now destruct v. Qed.

(* the number of attributes in a list that link to [b] *)
Definition count_links (b : nid) (l : list attr) : nat := length (filter (links_to b) l).

Lemma count_links_app b l1 l2 : count_links b (l1 ++ l2) = count_links b l1 + count_links b l2.
Proof. unfold count_links. now rewrite filter_app, app_length. Qed.

Lemma count_links_pos b l : 0 < count_links b l <-> exists a, In a l /\ link_target (a_value a) = Some b.
Proof.
  unfold count_links. split.
  - destruct (filter (links_to b) l) as [|a t] eqn:E; cbn; [lia|]. intros _. exists a.
    assert (H : In a (filter (links_to b) l)) by (rewrite E; now left).
    apply filter_In in H. rewrite links_to_iff in H. exact H.
  - intros (a & Ha & E). apply links_to_iff in E.
    assert (H : In a (filter (links_to b) l)) by (now apply filter_In).
    destruct (filter (links_to b) l); [easy|cbn; lia].
Qed.

Lemma count_links_zero b l : count_links b l = 0 <-> forall a, In a l -> link_target (a_value a) <> Some b.
Proof.
  split.
  - intros H a Ha E. assert (0 < count_links b l); [|lia]. apply count_links_pos. now exists a.
  - intros H. destruct (Nat.eq_dec (count_links b l) 0) as [|Hn]; [easy|].
    assert (Hp : 0 < count_links b l) by lia. apply count_links_pos in Hp.
    destruct Hp as (a & Ha & E). now apply H in E.
Qed.

(* dropping a name removes at most the one link it holds *)
Lemma count_links_drop l name b : NoDup (map a_name l) ->
  count_links b l = count_links b (drop_name name l) +
    match attrs_get_value l name with
    | Some v => match link_target v with Some t => if Nat.eqb b t then 1 else 0 | None => 0 end
    | None => 0
    end.
Proof.
  unfold count_links. induction l as [|a l IH]; cbn; [easy|]. intros Hn. inversion Hn; subst.
  destruct (aname_eqb_spec (a_name a) name) as [E|E]; cbn.
  - subst name. fold (drop_name (a_name a) l). rewrite drop_name_none by easy. unfold links_to at 1.
    destruct (link_target (a_value a)) as [t|]; [|lia].
    rewrite (Nat.eqb_sym b t). destruct (Nat.eqb t b); cbn; lia.
  - fold (drop_name name l). specialize (IH H2).
    destruct (links_to b a); cbn; lia.
Qed.

(* ---- removing the first occurrence *)
Fixpoint del_first (x : nid) (l : list nid) : list nid :=
  match l with
  | [] => []
  | y :: t => if Nat.eqb y x then t else y :: del_first x t
  end.

Lemma position_del x l : In x l ->
  exists i, position (fun n => Nat.eqb n x) l = Some i /\ remove_at i l = del_first x l.
Proof.
  induction l as [|y l IH]; cbn; [easy|]. intros H.
  destruct (Nat.eqb_spec y x) as [->|Hne].
  - now exists 0.
  - destruct H as [->|H]; [easy|]. destruct (IH H) as (i & -> & E). exists (S i). cbn. now rewrite E.
Qed.

Notation cnt := (count_occ Nat.eq_dec).

Lemma cnt_del_first x y l : cnt (del_first x l) y = cnt l y - (if Nat.eqb y x then 1 else 0).
Proof.
  induction l as [|z l IH]; [now destruct (Nat.eqb y x)|]. cbn [del_first].
  destruct (Nat.eqb_spec z x) as [->|Hz].
  - cbn. destruct (Nat.eq_dec x y) as [->|Hy].
    + rewrite Nat.eqb_refl. lia.
    + destruct (Nat.eqb_spec y x); [congruence|lia].
  - cbn [count_occ]. destruct (Nat.eq_dec z y) as [->|Hy].
    + rewrite IH. destruct (Nat.eqb_spec y x); [congruence|lia].
    + exact IH.
Qed.

Lemma filter_del_first (p : nid -> bool) x l : p x = false -> filter p (del_first x l) = filter p l.
Proof.
  intros H. induction l as [|y l IH]; cbn; [easy|].
  destruct (Nat.eqb_spec y x) as [->|Hy]; cbn; [now rewrite H|]. rewrite IH. easy.
Qed.

Lemma cnt_app x l1 l2 : cnt (l1 ++ l2) x = cnt l1 x + cnt l2 x.
Proof. apply count_occ_app. Qed.

(* editing one attribute in place *)
Lemma in_attrs_edit l name a b : In b (attrs_edit l name a) -> b = a \/ In b l.
Proof.
  induction l as [|v l IH]; cbn; [easy|]. destruct (aname_eqb (a_name v) name); cbn; [intuition|].
  intros [H|H]; [now right; left|]. destruct (IH H); tauto.
Qed.
Lemma names_attrs_edit l name a : a_name a = name -> map a_name (attrs_edit l name a) = map a_name l.
Proof.
  intros Hn. induction l as [|v l IH]; cbn; [easy|]. destruct (aname_eqb_spec (a_name v) name); cbn; congruence.
Qed.
Lemma NoDup_attrs_edit l name a : NoDup (map a_name l) -> ~ In (a_name a) (map a_name l) ->
  NoDup (map a_name (attrs_edit l name a)).
Proof.
  intros Hd. induction l as [|v l IH]; cbn [attrs_edit]; intros Hn; [constructor|].
  cbn [map] in Hd, Hn. apply NoDup_cons_iff in Hd. destruct Hd as (Hv & Hd).
  assert (Hn' : a_name a <> a_name v /\ ~ In (a_name a) (map a_name l)).
  { split; intros H; apply Hn; [left|right]; congruence. }
  destruct (aname_eqb (a_name v) name); cbn [map].
  - apply NoDup_cons_iff. split; tauto.
  - apply NoDup_cons_iff. split; [|now apply IH]. intros H. apply in_map_iff in H.
    destruct H as (b & Eb & Hb). apply in_attrs_edit in Hb. destruct Hb as [->|Hb]; [now apply Hn'|].
    apply Hv. rewrite <- Eb. now apply in_map.
Qed.
Lemma count_attrs_edit l name a b :
  link_target (a_value a) = None -> (forall old, attrs_get l name = Some old -> link_target (a_value old) = None) ->
  count_links b (attrs_edit l name a) = count_links b l.
Proof.
  intros Ha. induction l as [|v l IH]; cbn [attrs_edit attrs_get]; intros Ho; [easy|].
  assert (Hz : forall x, link_target (a_value x) = None -> links_to b x = false).
  { intros x Hx. unfold links_to. now rewrite Hx. }
  destruct (aname_eqb (a_name v) name).
  - unfold count_links. cbn [filter]. now rewrite (Hz a Ha), (Hz v (Ho v eq_refl)).
  - unfold count_links in *. cbn [filter]. destruct (links_to b v); cbn [length]; now rewrite IH.
Qed.
