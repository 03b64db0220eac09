(* Attributes and back references: remove_attribute and set_attribute keep them consistent. *)
From Coq Require Import List Bool PeanoNat NArith Lia.
From Verif Require Import Base Ids Links Tree Data Attrs Slab NodeApi ListFacts TreeProofs AttrFacts.
Import ListNotations.

Record LInv (D : dom) : Prop := {
  li_uniq   : forall n, NoDup (map a_name (attributes D n));
  li_sym    : forall a b, cnt (linked_nodes D b) a = count_links b (attributes D a);
  li_mutual : forall a b, 0 < count_links b (attributes D a) -> count_links a (attributes D b) = 0
}.

Lemma li_self D : LInv D -> forall a, count_links a (attributes D a) = 0.
Proof.
  intros I a. destruct (Nat.eq_dec (count_links a (attributes D a)) 0); [easy|].
  apply (li_mutual D I). lia.
Qed.

(* nothing but attributes and back references changes *)
Record frame (D D' : dom) : Prop := {
  fr_lk    : lk D' = lk D;
  fr_fresh : fresh D' = fresh D;
  fr_root  : droot D' = droot D;
  fr_store : store D' = store D;
  fr_key   : forall n, storage_key D' n = storage_key D n;
  fr_type  : forall n, node_type D' n = node_type D n;
  fr_tag   : forall n, tag_name D' n = tag_name D n;
  fr_id    : forall n, id_of D' n = id_of D n;
  fr_text  : forall n, text_of D' n = text_of D n
}.

Lemma frame_refl D : frame D D.
Proof. now split. Qed.
Lemma frame_trans D1 D2 D3 : frame D1 D2 -> frame D2 D3 -> frame D1 D3.
Proof.
  intros [] []. split; intros; try congruence.
Qed.

Lemma modify_attrs_frame n f D : frame D (modify n (fun d => set_attrs (f (d_attrs d)) d) D).
Proof.
  split; try easy; intros m; unfold modify, storage_key, node_type, tag_name, id_of, text_of; cbn;
    rewrite upd_eq; destruct (Nat.eqb_spec m n) as [->|]; easy.
Qed.
Lemma modify_linked_frame n f D : frame D (modify n (fun d => set_linked (f (d_linked d)) d) D).
Proof.
  split; try easy; intros m; unfold modify, storage_key, node_type, tag_name, id_of, text_of; cbn;
    rewrite upd_eq; destruct (Nat.eqb_spec m n) as [->|]; easy.
Qed.
Lemma modify_attrs_attrs n f D m :
  attributes (modify n (fun d => set_attrs (f (d_attrs d)) d) D) m =
  if Nat.eqb m n then f (attributes D n) else attributes D m.
Proof. unfold modify, attributes. cbn. rewrite upd_eq. now destruct (Nat.eqb_spec m n) as [->|]. Qed.
Lemma modify_attrs_linked n f D m :
  linked_nodes (modify n (fun d => set_attrs (f (d_attrs d)) d) D) m = linked_nodes D m.
Proof. unfold modify, linked_nodes. cbn. rewrite upd_eq. now destruct (Nat.eqb_spec m n) as [->|]. Qed.
Lemma modify_linked_linked n f D m :
  linked_nodes (modify n (fun d => set_linked (f (d_linked d)) d) D) m =
  if Nat.eqb m n then f (linked_nodes D n) else linked_nodes D m.
Proof. unfold modify, linked_nodes. cbn. rewrite upd_eq. now destruct (Nat.eqb_spec m n) as [->|]. Qed.
Lemma modify_linked_attrs n f D m :
  attributes (modify n (fun d => set_linked (f (d_linked d)) d) D) m = attributes D m.
Proof. unfold modify, attributes. cbn. rewrite upd_eq. now destruct (Nat.eqb_spec m n) as [->|]. Qed.

(* the target of the attribute [name] of a list *)
Definition named_target (l : list attr) (name : aname) : option nid :=
  match attrs_get_value l name with Some v => link_target v | None => None end.

Lemma named_target_in l name t : NoDup (map a_name l) ->
  named_target l name = Some t <-> exists v, In (mkAttr name v) l /\ link_target v = Some t.
Proof.
  intros Hn. unfold named_target. split.
  - destruct (attrs_get_value l name) as [v|] eqn:E; [|easy]. intros H. exists v.
    split; [|easy]. now apply get_value_spec.
  - intros (v & Hv & E). apply (get_value_spec l name Hn) in Hv. now rewrite Hv.
Qed.

Lemma count_links_drop' l name b : NoDup (map a_name l) ->
  count_links b (drop_name name l) = count_links b l -
    match named_target l name with Some t => if Nat.eqb b t then 1 else 0 | None => 0 end.
Proof.
  intros Hn. pose proof (count_links_drop l name b Hn) as H. unfold named_target.
  destruct (attrs_get_value l name) as [v|]; [|lia]. destruct (link_target v); lia.
Qed.

Theorem remove_attribute_spec self name D : LInv D ->
  exists D', remove_attribute self name D = Ok D' /\ frame D D' /\
    (forall n, attributes D' n = if Nat.eqb n self then drop_name name (attributes D n) else attributes D n) /\
    (forall b, linked_nodes D' b =
       match named_target (attributes D self) name with
       | Some t => if Nat.eqb b t then del_first self (linked_nodes D b) else linked_nodes D b
       | None => linked_nodes D b
       end) /\
    LInv D'.
Proof.
  intros I.
  assert (Hlinv : forall D', 
    (forall n, attributes D' n = if Nat.eqb n self then drop_name name (attributes D n) else attributes D n) ->
    (forall b, linked_nodes D' b =
       match named_target (attributes D self) name with
       | Some t => if Nat.eqb b t then del_first self (linked_nodes D b) else linked_nodes D b
       | None => linked_nodes D b
       end) -> LInv D').
  { intros D' Ha Hl.
    assert (Hle : forall a b, count_links b (attributes D' a) <= count_links b (attributes D a)).
    { intros a b. rewrite Ha. destruct (Nat.eqb_spec a self) as [->|]; [|easy].
      rewrite count_links_drop' by apply I. lia. }
    split.
    - intros n. rewrite Ha. destruct (Nat.eqb_spec n self) as [->|]; [|apply I].
      apply NoDup_drop_name, I.
    - intros a b. rewrite Ha, Hl. destruct (Nat.eqb_spec a self) as [->|Hne].
      + rewrite count_links_drop' by apply I. rewrite <- (li_sym D I).
        destruct (named_target _ _) as [t|]; [|lia].
        destruct (Nat.eqb_spec b t) as [->|]; [|lia].
        rewrite cnt_del_first, Nat.eqb_refl. easy.
      + rewrite <- (li_sym D I). destruct (named_target _ _) as [t|]; [|easy].
        destruct (Nat.eqb_spec b t) as [->|]; [|easy].
        rewrite cnt_del_first. destruct (Nat.eqb_spec a self); [easy|lia].
    - intros a b H. pose proof (Hle a b). pose proof (Hle b a).
      pose proof (li_mutual D I a b). lia. }
  unfold remove_attribute, has_attribute.
  destruct (attrs_contains (attributes D self) name) eqn:Ec; cbn [negb].
  2:{ apply contains_false in Ec. exists D.
      assert (Hd : drop_name name (attributes D self) = attributes D self) by now apply drop_name_none.
      assert (Hnt : named_target (attributes D self) name = None).
      { unfold named_target. apply get_value_none in Ec. now rewrite Ec. }
      split; [easy|]. split; [apply frame_refl|]. split; [|split; [|easy]].
      - intros n. destruct (Nat.eqb_spec n self) as [->|]; congruence.
      - intros b. now rewrite Hnt. }
  apply contains_iff in Ec.
  unfold named_target in *. destruct (attrs_get_value (attributes D self) name) as [v|] eqn:Ev.
  2:{ apply get_value_none in Ev. contradiction. }
  destruct (link_target v) as [t|] eqn:Et.
  - assert (Hin : In (mkAttr name v) (attributes D self)) by (apply get_value_spec; [apply I|easy]).
    assert (Hc : 0 < count_links t (attributes D self)).
    { apply count_links_pos. now exists (mkAttr name v). }
    assert (Hts : t <> self).
    { intros ->. rewrite (li_self D I) in Hc. lia. }
    assert (Hl : In self (linked_nodes D t)).
    { apply (count_occ_In Nat.eq_dec). rewrite (li_sym D I). lia. }
    destruct (position_del self (linked_nodes D t) Hl) as (i & Hp & Hr).
    rewrite Hp. unfold borrow_mut. rewrite mem_cons.
    replace (Nat.eqb t self) with false by (symmetry; now apply Nat.eqb_neq). cbn [orb].
    change (mem t []) with false. cbn [bind].
    eexists. split; [reflexivity|].
    assert (HA : forall n, attributes (modify self (fun d => set_attrs (attrs_remove (d_attrs d) name) d)
       (modify t (fun d => set_linked (remove_at i (d_linked d)) d) D)) n =
       if Nat.eqb n self then drop_name name (attributes D n) else attributes D n).
    { intros n. rewrite (modify_attrs_attrs self (fun l => attrs_remove l name)).
      rewrite !(modify_linked_attrs t (fun l => remove_at i l)).
      destruct (Nat.eqb_spec n self) as [->|]; [|easy]. apply attrs_remove_drop, I. }
    assert (HL : forall b, linked_nodes (modify self (fun d => set_attrs (attrs_remove (d_attrs d) name) d)
       (modify t (fun d => set_linked (remove_at i (d_linked d)) d) D)) b =
       if Nat.eqb b t then del_first self (linked_nodes D b) else linked_nodes D b).
    { intros b. rewrite (modify_attrs_linked self (fun l => attrs_remove l name)).
      rewrite (modify_linked_linked t (fun l => remove_at i l)).
      destruct (Nat.eqb_spec b t) as [->|]; [|easy]. exact Hr. }
    split; [|split; [exact HA|split; [exact HL|]]].
    + apply (frame_trans D (modify t (fun d => set_linked (remove_at i (d_linked d)) d) D));
         [apply (modify_linked_frame t (fun l => remove_at i l))
         |apply (modify_attrs_frame self (fun l => attrs_remove l name))].
    + apply (Hlinv _ HA HL).
  - cbn [bind]. eexists. split; [reflexivity|].
    assert (HA : forall n, attributes (modify self (fun d => set_attrs (attrs_remove (d_attrs d) name) d) D) n =
       if Nat.eqb n self then drop_name name (attributes D n) else attributes D n).
    { intros n. rewrite (modify_attrs_attrs self (fun l => attrs_remove l name)).
      destruct (Nat.eqb_spec n self) as [->|]; [|easy]. apply attrs_remove_drop, I. }
    assert (HL : forall b, linked_nodes (modify self (fun d => set_attrs (attrs_remove (d_attrs d) name) d) D) b =
       linked_nodes D b).
    { intros b. apply (modify_attrs_linked self (fun l => attrs_remove l name)). }
    split; [|split; [exact HA|split; [exact HL|]]].
    + apply (modify_attrs_frame self (fun l => attrs_remove l name)).
    + apply (Hlinv _ HA HL).
Qed.

(* replacing the whole attribute list by one without link changes keeps LInv *)
Lemma LInv_ext D D' : LInv D ->
  (forall n, attributes D' n = attributes D n) -> (forall n, linked_nodes D' n = linked_nodes D n) -> LInv D'.
Proof.
  intros I Ha Hl. split; intros; rewrite ?Ha, ?Hl in *; try apply I; try easy.
Qed.

Theorem set_simple_spec self a D : LInv D -> is_link_container (a_value a) = false ->
  exists D', set_simple_attribute self a D = Ok D' /\ frame D D' /\
    (forall n, attributes D' n =
       if Nat.eqb n self then drop_name (a_name a) (attributes D n) ++ [a] else attributes D n) /\
    (forall b, linked_nodes D' b =
       match named_target (attributes D self) (a_name a) with
       | Some t => if Nat.eqb b t then del_first self (linked_nodes D b) else linked_nodes D b
       | None => linked_nodes D b
       end) /\
    LInv D'.
Proof.
  intros I Hs. unfold set_simple_attribute. rewrite Hs.
  destruct (remove_attribute_spec self (a_name a) D I) as (D1 & -> & Hf & Ha & Hl & I1). cbn [bind].
  eexists. split; [reflexivity|].
  assert (HA : forall n, attributes (modify self (fun d => set_attrs (attrs_insert (d_attrs d) a) d) D1) n =
     if Nat.eqb n self then drop_name (a_name a) (attributes D n) ++ [a] else attributes D n).
  { intros n. rewrite (modify_attrs_attrs self (fun l => attrs_insert l a)), !Ha, Nat.eqb_refl.
    destruct (Nat.eqb_spec n self) as [->|]; [|easy]. apply attrs_insert_new, drop_name_notin. }
  assert (HL : forall n, linked_nodes (modify self (fun d => set_attrs (attrs_insert (d_attrs d) a) d) D1) n =
     linked_nodes D1 n) by (apply (modify_attrs_linked self (fun l => attrs_insert l a))).
  assert (Hz : forall b, count_links b [a] = 0).
  { intros b. apply count_links_zero. intros x [<-|[]]. rewrite is_link_container_target in Hs.
    now destruct (link_target (a_value a)). }
  split; [|split; [exact HA|split]].
  - apply (frame_trans D D1 _ Hf). apply (modify_attrs_frame self (fun l => attrs_insert l a)).
  - intros b. now rewrite HL, Hl.
  - split.
    + intros n. rewrite HA. destruct (Nat.eqb_spec n self) as [->|]; [|apply I].
      rewrite map_app. cbn. apply NoDup_Add with (a := a_name a) (l := map a_name (drop_name (a_name a) (attributes D self))).
      * pose proof (Add_app (a_name a) (map a_name (drop_name (a_name a) (attributes D self))) []) as H.
        now rewrite app_nil_r in H.
      * split; [apply NoDup_drop_name, I|apply drop_name_notin].
    + intros x b. rewrite HA, HL, (li_sym D1 I1), Ha.
      destruct (Nat.eqb x self); [|easy]. rewrite count_links_app, Hz. lia.
    + intros x b. rewrite !HA. pose proof (li_mutual D1 I1 x b) as H. rewrite !Ha in H.
      destruct (Nat.eqb x self), (Nat.eqb b self); rewrite ?count_links_app, ?Hz; rewrite ?Nat.add_0_r; exact H.
Qed.

Lemma link_attr_name name t fb : a_name (link_attr name t fb) = name.
Proof. unfold link_attr. destruct (name_has_id name A_Href); [easy|]. now destruct (_ || _). Qed.
Lemma link_attr_target name t fb : link_target (a_value (link_attr name t fb)) = Some t.
Proof. unfold link_attr. destruct (name_has_id name A_Href); [easy|]. now destruct (_ || _). Qed.

Theorem set_link_spec self name t fb D : LInv D ->
  if negb (has_id D t) then set_link_attribute self name t fb D = Ok (D, RErr ElementMustHaveAnId)
  else if str_eqb (id_of D self) (id_of D t) || mem t (linked_nodes D self)
  then set_link_attribute self name t fb D = Ok (D, RErr ElementCrosslink)
  else exists D', set_link_attribute self name t fb D = Ok (D', ROk) /\ frame D D' /\
    (forall n, attributes D' n =
       if Nat.eqb n self then drop_name name (attributes D n) ++ [link_attr name t fb] else attributes D n) /\
    (forall b, linked_nodes D' b =
       (match named_target (attributes D self) name with
        | Some u => if Nat.eqb b u then del_first self (linked_nodes D b) else linked_nodes D b
        | None => linked_nodes D b
        end) ++ (if Nat.eqb b t then [self] else [])) /\
    LInv D'.
Proof.
  intros I. assert (HE := eq_refl (set_link_attribute self name t fb D)).
  unfold set_link_attribute in HE at 2.
  destruct (has_id D t) eqn:Ei; cbn [negb] in *; [|exact HE].
  destruct (str_eqb (id_of D self) (id_of D t)) eqn:Es; cbn [orb]; [exact HE|].
  assert (Hm : existsb (fun n => Nat.eqb n t) (linked_nodes D self) = mem t (linked_nodes D self)).
  { unfold mem. clear. induction (linked_nodes D self) as [|x l IH]; [easy|]. cbn.
    now rewrite IH, (Nat.eqb_sym x t). }
  rewrite Hm in HE. destruct (mem t (linked_nodes D self)) eqn:Em; [exact HE|].
  assert (Hne : self <> t).
  { intros ->. rewrite (proj2 (str_eqb_eq _ _) eq_refl) in Es. easy. }
  destruct (remove_attribute_spec self name D I) as (D1 & Hr & Hf & Ha & Hl & I1).
  rewrite Hr in HE. cbn [bind] in HE. eexists. split; [exact HE|]. clear HE.
  set (a := link_attr name t fb).
  assert (HA : forall n, attributes (modify t (fun d => set_linked (d_linked d ++ [self]) d)
     (modify self (fun d => set_attrs (attrs_insert (d_attrs d) a) d) D1)) n =
     if Nat.eqb n self then drop_name name (attributes D n) ++ [a] else attributes D n).
  { intros n. rewrite (modify_linked_attrs t (fun l => l ++ [self])).
    rewrite (modify_attrs_attrs self (fun l => attrs_insert l a)), !Ha, Nat.eqb_refl.
    destruct (Nat.eqb_spec n self) as [->|]; [|easy]. apply attrs_insert_new.
    unfold a. rewrite link_attr_name. apply drop_name_notin. }
  assert (HL : forall n, linked_nodes (modify t (fun d => set_linked (d_linked d ++ [self]) d)
     (modify self (fun d => set_attrs (attrs_insert (d_attrs d) a) d) D1)) n =
     linked_nodes D1 n ++ (if Nat.eqb n t then [self] else [])).
  { intros n. rewrite (modify_linked_linked t (fun l => l ++ [self])).
    rewrite !(modify_attrs_linked self (fun l => attrs_insert l a)).
    destruct (Nat.eqb_spec n t) as [->|]; [easy|now rewrite app_nil_r]. }
  assert (Hz : forall b, count_links b [a] = if Nat.eqb b t then 1 else 0).
  { intros b. unfold count_links. cbn. unfold links_to. unfold a. rewrite link_attr_target, Nat.eqb_sym.
    now destruct (Nat.eqb b t). }
  assert (Hback : count_links self (attributes D t) = 0).
  { rewrite <- (li_sym D I). apply count_occ_not_In. now apply mem_not_In. }
  split; [|split; [exact HA|split]].
  - apply (frame_trans D D1 _ Hf).
    eapply frame_trans; [apply (modify_attrs_frame self (fun l => attrs_insert l a))|].
    apply (modify_linked_frame t (fun l => l ++ [self])).
  - intros b. now rewrite HL, Hl.
  - split.
    + intros n. rewrite HA. destruct (Nat.eqb_spec n self) as [->|]; [|apply I].
      rewrite map_app. cbn [map]. unfold a. rewrite link_attr_name.
      apply NoDup_Add with (a := name) (l := map a_name (drop_name name (attributes D self))).
      * pose proof (Add_app name (map a_name (drop_name name (attributes D self))) []) as H.
        now rewrite app_nil_r in H.
      * split; [apply NoDup_drop_name, I|apply drop_name_notin].
    + intros x b. rewrite HA, HL, cnt_app, (li_sym D1 I1), Ha.
      destruct (Nat.eqb_spec x self) as [->|Hx].
      * rewrite count_links_app, Hz. destruct (Nat.eqb b t); cbn; [|lia].
        destruct (Nat.eq_dec self self); [lia|easy].
      * destruct (Nat.eqb b t); cbn; [|lia]. destruct (Nat.eq_dec self x); [congruence|lia].
    + intros x b. rewrite !HA.
      pose proof (li_mutual D1 I1 x b) as H. rewrite !Ha in H.
      assert (Hst : Nat.eqb self t = false) by now apply Nat.eqb_neq.
      destruct (Nat.eqb_spec x self) as [Hx|Hx]; [subst x|]; (destruct (Nat.eqb_spec b self) as [Hb|Hb]; [subst b|]);
        rewrite ?count_links_app, ?Hz, ?Hst, ?Nat.add_0_r; try exact H.
      * destruct (Nat.eqb_spec b t) as [Hbt|]; [subst b; intros _; exact Hback|]. rewrite Nat.add_0_r. exact H.
      * destruct (Nat.eqb_spec x t) as [Hbt|]; [subst x; lia|]. now rewrite Nat.add_0_r.
Qed.

(* set_attribute_checked as one statement *)
Definition stored (a : attr) : attr :=
  match a_value a with
  | VLink t | VFuncLink t => link_attr (a_name a) t None
  | VPaint t fb => link_attr (a_name a) t fb
  | _ => a
  end.

Lemma stored_name a : a_name (stored a) = a_name a.
Proof. unfold stored. destruct (a_value a); try easy; apply link_attr_name. Qed.
Lemma stored_target a : link_target (a_value (stored a)) = link_target (a_value a).
Proof. unfold stored. destruct (a_value a) eqn:E; rewrite ?E; try easy; apply link_attr_target. Qed.

(* the error, if any *)
Definition link_error (D : dom) (self : nid) (a : attr) : option error :=
  match link_target (a_value a) with
  | None => None
  | Some t =>
      if negb (has_id D t) then Some ElementMustHaveAnId
      else if str_eqb (id_of D self) (id_of D t) || mem t (linked_nodes D self) then Some ElementCrosslink
      else None
  end.

Theorem set_attribute_checked_spec self a D : LInv D -> is_element D self = true ->
  match link_error D self a with
  | Some e => set_attribute_checked self a D = Ok (D, RErr e)
  | None => exists D', set_attribute_checked self a D = Ok (D', ROk) /\ frame D D' /\
      (forall n, attributes D' n =
         if Nat.eqb n self then drop_name (a_name a) (attributes D n) ++ [stored a] else attributes D n) /\
      (forall b, linked_nodes D' b =
         (match named_target (attributes D self) (a_name a) with
          | Some u => if Nat.eqb b u then del_first self (linked_nodes D b) else linked_nodes D b
          | None => linked_nodes D b
          end) ++ (match link_target (a_value a) with
                   | Some t => if Nat.eqb b t then [self] else []
                   | None => [] end)) /\
      LInv D'
  end.
Proof.
  intros I He. unfold link_error. assert (HE := eq_refl (set_attribute_checked self a D)).
  unfold set_attribute_checked in HE at 2. rewrite He in HE. cbn [negb] in HE.
  unfold stored.
  assert (Hsimple : link_target (a_value a) = None ->
    set_attribute_checked self a D = (D0 <- set_simple_attribute self a D;; Ok (D0, ROk)) ->
    exists D', set_attribute_checked self a D = Ok (D', ROk) /\ frame D D' /\
      (forall n, attributes D' n =
         if Nat.eqb n self then drop_name (a_name a) (attributes D n) ++ [a] else attributes D n) /\
      (forall b, linked_nodes D' b =
         (match named_target (attributes D self) (a_name a) with
          | Some u => if Nat.eqb b u then del_first self (linked_nodes D b) else linked_nodes D b
          | None => linked_nodes D b
          end) ++ []) /\
      LInv D').
  { intros Ht Hs. destruct (set_simple_spec self a D I) as (D' & Hd & Hf & HA & HL & I').
    { rewrite is_link_container_target. now rewrite Ht. }
    rewrite Hd in Hs. cbn in Hs. exists D'. split; [exact Hs|]. split; [exact Hf|]. split; [exact HA|].
    split; [|exact I']. intros b. rewrite app_nil_r. apply HL. }
  assert (Hlink : forall t fb, set_attribute_checked self a D = set_link_attribute self (a_name a) t fb D ->
    match (if negb (has_id D t) then Some ElementMustHaveAnId
      else if str_eqb (id_of D self) (id_of D t) || mem t (linked_nodes D self) then Some ElementCrosslink
      else None) with
    | Some e => set_attribute_checked self a D = Ok (D, RErr e)
    | None => exists D', set_attribute_checked self a D = Ok (D', ROk) /\ frame D D' /\
      (forall n, attributes D' n =
         if Nat.eqb n self then drop_name (a_name a) (attributes D n) ++ [link_attr (a_name a) t fb] else attributes D n) /\
      (forall b, linked_nodes D' b =
         (match named_target (attributes D self) (a_name a) with
          | Some u => if Nat.eqb b u then del_first self (linked_nodes D b) else linked_nodes D b
          | None => linked_nodes D b
          end) ++ (if Nat.eqb b t then [self] else [])) /\
      LInv D'
    end).
  { intros t fb Hs. pose proof (set_link_spec self (a_name a) t fb D I) as H.
    destruct (negb (has_id D t)); [congruence|]. destruct (str_eqb _ _ || _); [congruence|].
    destruct H as (D' & Hd & H). exists D'. split; [congruence|exact H]. }
  destruct (a_value a) eqn:Ev; cbn [link_target] in *; try (apply Hsimple; [reflexivity|exact HE]);
    apply Hlink; exact HE.
Qed.
