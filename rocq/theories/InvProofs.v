(* The invariant of all reachable documents. *)
From Coq Require Import List Bool PeanoNat NArith Lia.
From Verif Require Import Base Ids Links Tree Iter ForestSpec ListFacts TreeProofs ForestFacts IterSpec IterProofs
  PruneFacts Data Attrs Slab SlabProofs NodeApi Doc AttrFacts LinkProofs RemoveProofs History.
Import ListNotations.

Definition isolated (F : forest) (n : nid) : Prop :=
  parent_of F n = None /\ siblings_of F n = [n] /\ children_of F n = [].

Record InvF (D : dom) (F : forest) : Prop := {
  iv_rep   : Rep (lk D) F;
  iv_link  : LInv D;
  iv_slab  : slab_ok (store D) (storage_key D);
  iv_iso   : forall n, fresh D <= n -> isolated F n;
  iv_blank : forall n, fresh D <= n -> dt D n = blank;
  iv_rlt   : droot D < fresh D;
  iv_root  : forall n, n < fresh D -> node_type D n = NRoot <-> n = droot D;
  iv_tag   : forall n, is_element D n = true -> empty_tag (tag_name D n) = false;
  iv_plain : forall n, is_element D n = false ->
               attributes D n = [] /\ tag_name D n = QName [] /\ id_of D n = [];
  iv_shape : forall n a, In a (attributes D n) -> stored a = a
}.
(* With [A] the forest is also acyclic. *)
Definition Inv (A : Prop) (D : dom) : Prop := exists F, InvF D F /\ (A -> acyclic F).

(* ---- isolation *)
Lemma rm_single_ne n m : m <> n -> rm n [m] = [m].
Proof. intros H. unfold rm. cbn. destruct (Nat.eqb_spec m n); [easy|reflexivity]. Qed.
Lemma rm_nil n : rm n [] = [].
Proof. reflexivity. Qed.

Lemma iso_detach F n m : isolated F m -> isolated (f_detach n F) m.
Proof.
  intros (Hp & Hs & Hc). unfold isolated. cbn. rewrite Hp, Hs, Hc.
  destruct (Nat.eqb_spec m n) as [->|]; [easy|]. now rewrite rm_single_ne.
Qed.

Lemma iso_append F p n m : wf_forest F -> isolated F m -> m <> p -> m <> n -> isolated (f_append p n F) m.
Proof.
  intros W (Hp & Hs & Hc) H1 H2. unfold isolated. rewrite parent_append, children_append by easy.
  destruct (Nat.eqb_spec m n); [easy|]. destruct (Nat.eqb_spec m p); [easy|]. rewrite Hp, Hc.
  split; [easy|]. split; [|easy]. unfold f_append, f_set_children. cbn [siblings_of].
  replace (mem m _) with false.
  - cbn. destruct (Nat.eqb_spec m n); [easy|]. rewrite Hs. now apply rm_single_ne.
  - symmetry. apply mem_not_In. rewrite in_app_iff. cbn. intros [H|[H|[]]]; [|congruence].
    apply in_rm in H. destruct H as (H & _). apply (wf_child F W) in H. congruence.
Qed.
Lemma iso_prepend F p n m : wf_forest F -> isolated F m -> m <> p -> m <> n -> isolated (f_prepend p n F) m.
Proof.
  intros W (Hp & Hs & Hc) H1 H2. unfold isolated. rewrite parent_prepend, children_prepend by easy.
  destruct (Nat.eqb_spec m n); [easy|]. destruct (Nat.eqb_spec m p); [easy|]. rewrite Hp, Hc.
  split; [easy|]. split; [|easy]. unfold f_prepend, f_set_children. cbn [siblings_of].
  replace (mem m _) with false.
  - cbn. destruct (Nat.eqb_spec m n); [easy|]. rewrite Hs. now apply rm_single_ne.
  - symmetry. apply mem_not_In. cbn. intros [H|H]; [congruence|].
    apply in_rm in H. destruct H as (H & _). apply (wf_child F W) in H. congruence.
Qed.

Lemma iso_not_sibling F a m : wf_forest F -> isolated F m -> m <> a -> ~ In m (siblings_of F a).
Proof.
  intros W (Hp & Hs & Hc) H Hin. destruct (wf_share F W a m Hin) as (E & _).
  pose proof (wf_self F W a) as Ha. rewrite <- E, Hs in Ha. destruct Ha as [->|[]]. easy.
Qed.

Lemma iso_insert_after F a n m : wf_forest F -> isolated F m -> m <> a -> m <> n -> a <> n ->
  isolated (f_insert_after a n F) m.
Proof.
  intros W I H1 H2 H3. pose proof (iso_not_sibling F a m W I H1) as Hns. destruct I as (Hp & Hs & Hc).
  unfold isolated. rewrite parent_insert_after, children_insert_after by easy.
  destruct (Nat.eqb_spec m n); [easy|]. rewrite Hp, Hc. split; [easy|]. split.
  - unfold f_insert_after, f_set_siblings. cbn [siblings_of]. replace (mem m _) with false.
    + cbn. destruct (Nat.eqb_spec m n); [easy|]. rewrite Hs. now apply rm_single_ne.
    + symmetry. apply mem_not_In. intros H.
      cbn [f_detach siblings_of] in H. destruct (Nat.eqb_spec a n); [easy|].
      apply in_ins_after in H; [|apply in_rm; split; [apply (wf_self F W)|easy]].
      destruct H as [H|H]; [congruence|]. apply in_rm in H. tauto.
  - destruct (parent_of F a) as [p|] eqn:Ep; [|easy]. destruct (Nat.eqb_spec m p) as [->|]; [|easy].
    exfalso. pose proof (wf_parent F W a p Ep) as E. pose proof (wf_self F W a) as Ha.
    rewrite E, Hc in Ha. easy.
Qed.
Lemma iso_insert_before F a n m : wf_forest F -> isolated F m -> m <> a -> m <> n -> a <> n ->
  isolated (f_insert_before a n F) m.
Proof.
  intros W I H1 H2 H3. pose proof (iso_not_sibling F a m W I H1) as Hns. destruct I as (Hp & Hs & Hc).
  unfold isolated. rewrite parent_insert_before, children_insert_before by easy.
  destruct (Nat.eqb_spec m n); [easy|]. rewrite Hp, Hc. split; [easy|]. split.
  - unfold f_insert_before, f_set_siblings. cbn [siblings_of]. replace (mem m _) with false.
    + cbn. destruct (Nat.eqb_spec m n); [easy|]. rewrite Hs. now apply rm_single_ne.
    + symmetry. apply mem_not_In. intros H.
      cbn [f_detach siblings_of] in H. destruct (Nat.eqb_spec a n); [easy|].
      apply in_ins_before in H; [|apply in_rm; split; [apply (wf_self F W)|easy]].
      destruct H as [H|H]; [congruence|]. apply in_rm in H. tauto.
  - destruct (parent_of F a) as [p|] eqn:Ep; [|easy]. destruct (Nat.eqb_spec m p) as [->|]; [|easy].
    exfalso. pose proof (wf_parent F W a p Ep) as E. pose proof (wf_self F W a) as Ha.
    rewrite E, Hc in Ha. easy.
Qed.

(* ---- building blocks *)
Lemma InvF_links D F L' F' : InvF D F -> Rep L' F' -> (forall n, fresh D <= n -> isolated F' n) ->
  InvF (with_lk L' D) F'.
Proof. intros [] R Hi. split; try assumption. now apply (LInv_ext D). Qed.

Lemma InvF_ext D F F' : forest_eq F F' -> InvF D F -> InvF D F'.
Proof.
  intros E I. pose proof E as (E1 & E2 & E3). destruct I. split; auto.
  - eapply Rep_ext; eauto.
  - intros n Hn. unfold isolated. rewrite <- E1, <- E2, <- E3. now apply iv_iso0.
Qed.

(* changes of attributes and back references *)
Lemma InvF_frame D D' F : InvF D F -> frame D D' -> LInv D' ->
  (forall n, fresh D <= n -> attributes D' n = [] /\ linked_nodes D' n = []) ->
  (forall n, is_element D n = false -> attributes D' n = []) ->
  (forall n a, In a (attributes D' n) -> In a (attributes D n) \/ stored a = a) ->
  InvF D' F.
Proof.
  intros I Hf HL Hb He Hsh. destruct I, Hf.
  assert (Hel : forall n, is_element D' n = is_element D n) by (intros; unfold is_element; congruence).
  split; try congruence.
  - eapply slab_ok_ext; [exact fr_key|]. congruence.
  - intros n Hn. apply iv_iso0. congruence.
  - intros n Hn. rewrite fr_fresh in Hn.
    specialize (Hb n Hn). specialize (iv_blank0 n Hn).
    specialize (fr_key n). specialize (fr_type n). specialize (fr_tag n). specialize (fr_id n). specialize (fr_text n).
    unfold storage_key, node_type, tag_name, id_of, text_of, attributes, linked_nodes in *.
    rewrite iv_blank0 in *. destruct (dt D' n). unfold blank, new_data in *. cbn in *. destruct Hb. congruence.
  - intros n Hn. rewrite fr_type, fr_root. apply iv_root0. congruence.
  - intros n. rewrite Hel, fr_tag. apply iv_tag0.
  - intros n. rewrite Hel, fr_tag, fr_id. intros Hn. split; [now apply He|]. now apply iv_plain0.
  - intros n a Ha. destruct (Hsh n a Ha) as [H|H]; [|easy]. eauto.
Qed.

Lemma blank_facts D F n : InvF D F -> fresh D <= n ->
  attributes D n = [] /\ linked_nodes D n = [] /\ id_of D n = [] /\ is_element D n = false /\ storage_key D n = None.
Proof.
  intros I Hn. unfold attributes, linked_nodes, id_of, is_element, node_type, storage_key.
  rewrite (iv_blank D F I n Hn). easy.
Qed.

Lemma element_exists D F n : InvF D F -> is_element D n = true -> n < fresh D.
Proof.
  intros I H. destruct (Nat.lt_ge_cases n (fresh D)) as [|Hn]; [easy|].
  destruct (blank_facts D F n I Hn) as (_ & _ & _ & E & _). congruence.
Qed.

Lemma target_exists D F a b : InvF D F -> 0 < count_links b (attributes D a) -> b < fresh D.
Proof.
  intros I H. rewrite <- (li_sym D (iv_link D F I)) in H.
  destruct (Nat.lt_ge_cases b (fresh D)) as [|Hn]; [easy|].
  destruct (blank_facts D F b I Hn) as (_ & E & _). rewrite E in H. cbn in H. lia.
Qed.

Lemma remove_attribute_inv D F self name : InvF D F ->
  exists D', remove_attribute self name D = Ok D' /\ InvF D' F /\ frame D D'.
Proof.
  intros I. destruct (remove_attribute_spec self name D (iv_link D F I)) as (D' & E & Hf & Ha & Hl & HL).
  exists D'. split; [easy|]. split; [|easy]. apply (InvF_frame D D' F I Hf HL).
  - intros n Hn. destruct (blank_facts D F n I Hn) as (E1 & E2 & _). rewrite Ha, Hl, E1, E2.
    split; [now destruct (Nat.eqb n self)|]. destruct (named_target _ _); [|easy]. now destruct (Nat.eqb n n0).
  - intros n Hn. rewrite Ha. destruct (iv_plain D F I n Hn) as (-> & _). now destruct (Nat.eqb n self).
  - intros n a. rewrite Ha. destruct (Nat.eqb n self); [|now left]. intros H. apply in_drop_name in H. tauto.
Qed.

Lemma stored_stored a : stored (stored a) = stored a.
Proof.
  destruct a as [name v]. destruct v; try reflexivity; unfold stored at 2 3; cbn [a_value a_name];
    unfold link_attr; destruct (name_has_id name A_Href) eqn:E1;
    [| | | |  |]; try (destruct (name_has_id name A_Fill || name_has_id name A_Stroke) eqn:E2);
    unfold stored; cbn [a_value a_name]; unfold link_attr; now rewrite E1, ?E2.
Qed.

Lemma set_checked_inv D F self a r : InvF D F -> set_attribute_checked self a D = Ok r ->
  InvF (fst r) F /\ frame D (fst r).
Proof.
  intros I H. destruct (is_element D self) eqn:He.
  2:{ unfold set_attribute_checked in H. rewrite He in H. easy. }
  pose proof (set_attribute_checked_spec self a D (iv_link D F I) He) as Hs.
  destruct (link_error D self a) as [e|] eqn:Ee.
  { rewrite Hs in H. injection H as <-. split; [exact I|apply frame_refl]. }
  destruct Hs as (D' & E & Hf & Ha & Hl & HL). rewrite E in H. injection H as <-. cbn [fst].
  split; [|exact Hf]. apply (InvF_frame D D' F I Hf HL).
  - intros n Hn. destruct (blank_facts D F n I Hn) as (E1 & E2 & E3 & E4 & _).
    rewrite Ha, Hl, E1, E2.
    destruct (Nat.eqb_spec n self) as [->|_]; [congruence|]. split; [easy|].
    assert (Hdel : (match named_target (attributes D self) (a_name a) with
       | Some t => if Nat.eqb n t then del_first self [] else []
       | None => [] end) = @nil nid).
    { destruct (named_target _ _); [|easy]. now destruct (Nat.eqb n n0). }
    rewrite Hdel. destruct (link_target (a_value a)) as [t|] eqn:Et; [|easy].
    destruct (Nat.eqb_spec n t) as [<-|_]; [|easy].
    unfold link_error in Ee. rewrite Et in Ee. unfold has_id in Ee. now rewrite E3 in Ee.
  - intros n Hn. rewrite Ha. destruct (Nat.eqb_spec n self) as [->|_]; [congruence|].
    now apply (iv_plain D F I).
  - intros n b. rewrite Ha. destruct (Nat.eqb n self); [|now left]. intros H. apply in_app_iff in H.
    destruct H as [H|[<-|[]]]; [apply in_drop_name in H; tauto|]. right. apply stored_stored.
Qed.

Lemma set_attribute_inv D F self a D' : InvF D F -> set_attribute self a D = Ok D' ->
  InvF D' F /\ frame D D'.
Proof.
  intros I H. unfold set_attribute in H.
  destruct (set_attribute_checked self a D) as [[D1 r]| |] eqn:E; cbn in H; try easy.
  destruct r; [|easy]. injection H as <-. apply (set_checked_inv D F self a (D1, ROk) I E).
Qed.

(* allocation *)
Theorem alloc_inv D F d : InvF D F ->
  d_key d = None -> d_type d <> NRoot -> d_attrs d = [] -> d_linked d = [] -> d_id d = [] ->
  (d_type d = NElement -> empty_tag (d_tag d) = false) ->
  (d_type d <> NElement -> d_tag d = QName []) ->
  exists k D', alloc d D = Ok (fresh D, D') /\ InvF D' F /\
    lk D' = lk D /\ fresh D' = S (fresh D) /\ droot D' = droot D /\
    (forall m, dt D' m = if Nat.eqb m (fresh D) then set_key (Some k) d else dt D m).
Proof.
  intros I Hk Ht Ha Hl Hi Htag Hplain.
  destruct (blank_facts D F (fresh D) I (le_n _)) as (B1 & B2 & B3 & B4 & B5).
  destruct (slab_insert_spec (store D) (storage_key D) (fresh D) (iv_slab D F I) B5) as (k & s' & Es & _ & Hok).
  unfold alloc. rewrite Es. cbn [bind fst snd]. exists k. eexists. split; [reflexivity|].
  assert (Hdt : forall m, dt (mkDom (lk D) (upd (dt D) (fresh D) (set_key (Some k) d)) (S (fresh D)) (droot D) s') m =
    if Nat.eqb m (fresh D) then set_key (Some k) d else dt D m).
  { intros m. cbn. apply upd_eq. }
  set (D' := mkDom _ _ _ _ _) in *.
  split; [|easy].
  assert (Hat : forall m, attributes D' m = attributes D m).
  { intros m. unfold attributes. rewrite Hdt. destruct (Nat.eqb_spec m (fresh D)) as [->|]; [|easy].
    cbn. rewrite Ha. symmetry. exact B1. }
  assert (Hli : forall m, linked_nodes D' m = linked_nodes D m).
  { intros m. unfold linked_nodes. rewrite Hdt. destruct (Nat.eqb_spec m (fresh D)) as [->|]; [|easy].
    cbn. rewrite Hl. symmetry. exact B2. }
  split.
  - apply I.
  - apply (LInv_ext D D' (iv_link D F I) Hat Hli).
  - cbn [D' store]. eapply slab_ok_ext; [|exact Hok]. intros m. unfold storage_key at 1. rewrite Hdt.
    now destruct (Nat.eqb m (fresh D)).
  - intros n Hn. cbn [D' fresh] in Hn. apply (iv_iso D F I). lia.
  - intros n Hn. cbn [D' fresh] in Hn. rewrite Hdt. destruct (Nat.eqb_spec n (fresh D)); [lia|].
    apply (iv_blank D F I). lia.
  - cbn. pose proof (iv_rlt D F I). lia.
  - intros n Hn. cbn [D' fresh] in Hn. unfold node_type. rewrite Hdt.
    change (droot D') with (droot D).
    destruct (Nat.eqb_spec n (fresh D)) as [->|].
    + cbn. pose proof (iv_rlt D F I). split; [easy|lia].
    + apply (iv_root D F I). lia.
  - intros n. unfold is_element, node_type, tag_name. rewrite Hdt. destruct (Nat.eqb_spec n (fresh D)) as [->|].
    + cbn. intros H. apply Htag. now apply ntype_eqb_eq in H.
    + apply (iv_tag D F I).
  - intros n. rewrite Hat. unfold is_element, node_type, tag_name, id_of. rewrite Hdt.
    destruct (Nat.eqb_spec n (fresh D)) as [->|].
    + cbn. intros H. split; [exact B1|]. split; [|easy]. apply Hplain. intros E. rewrite E in H. easy.
    + apply (iv_plain D F I).
  - intros n a. rewrite Hat. apply (iv_shape D F I).
Qed.

Lemma new_document_inv : exists D, new_document = Ok D /\ InvF D empty_forest /\
  fresh D = 1 /\ droot D = 0 /\ (forall n, l_root (lk D) n = None) /\ lk D = no_links.
Proof.
  eexists. split; [reflexivity|]. split; [|easy].
  assert (Hk : forall m, storage_key (mkDom no_links (upd (fun _ => blank) 0
     (set_key (Some 0) (new_data NRoot (QName []) []))) 1 0 (mkSlab [Occupied 0] 1 1)) m = if Nat.eqb m 0 then Some 0 else None).
  { intros m. unfold storage_key. cbn. rewrite upd_eq. now destruct (Nat.eqb m 0). }
  split; cbn -[storage_key].
  - apply Rep_empty.
  - split.
    + intros n. unfold attributes. cbn. rewrite upd_eq. destruct (Nat.eqb n 0); constructor.
    + intros a b. unfold linked_nodes, attributes. cbn. rewrite !upd_eq. destruct (Nat.eqb a 0), (Nat.eqb b 0); easy.
    + intros a b. unfold attributes. cbn. rewrite !upd_eq. destruct (Nat.eqb a 0), (Nat.eqb b 0); cbn; lia.
  - split.
    + intros n k. rewrite Hk. destruct (Nat.eqb_spec n 0) as [->|]; [|easy]. intros [= <-]. easy.
    + intros n k. rewrite Hk. unfold slab_get. cbn. destruct k as [|[|k]]; cbn; try easy.
      intros [= <-]. easy.
    + exists []. split; [constructor|easy].
  - easy.
  - intros n Hn. rewrite upd_eq. destruct (Nat.eqb_spec n 0); [lia|easy].
  - lia.
  - intros n Hn. assert (n = 0) by lia. subst. easy.
  - intros n. unfold is_element, node_type, tag_name. cbn. rewrite upd_eq. now destruct (Nat.eqb n 0).
  - intros n. unfold attributes, tag_name, id_of. cbn. rewrite upd_eq. now destruct (Nat.eqb n 0).
  - intros n a. unfold attributes. cbn. rewrite upd_eq. now destruct (Nat.eqb n 0).
Qed.

(* plain edits in place *)
Lemma edit_frame n name a D : frame D (attribute_mut n name a D).
Proof. apply (modify_attrs_frame n (fun l => attrs_edit l name a)). Qed.
Lemma edit_attrs n name a D m : attributes (attribute_mut n name a D) m =
  if Nat.eqb m n then attrs_edit (attributes D n) name a else attributes D m.
Proof. apply (modify_attrs_attrs n (fun l => attrs_edit l name a)). Qed.
Lemma edit_linked n name a D m : linked_nodes (attribute_mut n name a D) m = linked_nodes D m.
Proof. apply (modify_attrs_linked n (fun l => attrs_edit l name a)). Qed.

Lemma edit_inv D F n name a : InvF D F ->
  link_target (a_value a) = None ->
  (forall old, attrs_get (attributes D n) name = Some old -> link_target (a_value old) = None) ->
  (a_name a = name \/ has_attribute D n (a_name a) = false) ->
  InvF (attribute_mut n name a D) F.
Proof.
  intros I Ha Ho Hn.
  assert (Hc : forall x b, count_links b (attributes (attribute_mut n name a D) x) = count_links b (attributes D x)).
  { intros x b. rewrite edit_attrs. destruct (Nat.eqb_spec x n) as [->|]; [|easy]. now apply count_attrs_edit. }
  apply (InvF_frame D _ F I (edit_frame n name a D)).
  - split.
    + intros m. rewrite edit_attrs. destruct (Nat.eqb_spec m n) as [->|]; [|apply I].
      destruct Hn as [Hn|Hn]; [rewrite names_attrs_edit by easy; apply I|].
      apply NoDup_attrs_edit; [apply I|]. now apply contains_false.
    + intros x b. rewrite edit_linked, Hc. apply I.
    + intros x b. rewrite !Hc. apply I.
  - intros m Hm. destruct (blank_facts D F m I Hm) as (E1 & E2 & _). rewrite edit_attrs, edit_linked, E2.
    split; [|easy]. destruct (Nat.eqb_spec m n) as [->|]; [|easy]. now rewrite E1.
  - intros m Hm. rewrite edit_attrs. destruct (iv_plain D F I m Hm) as (E & _).
    destruct (Nat.eqb_spec m n) as [->|]; [|easy]. now rewrite E.
  - intros m b. rewrite edit_attrs. destruct (Nat.eqb_spec m n) as [->|]; [|now left].
    intros H. apply in_attrs_edit in H. destruct H as [->|H]; [right|now left].
    clear - Ha. destruct a as [nm v]. now destruct v.
Qed.
