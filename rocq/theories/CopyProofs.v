(* copy_node and copy_node_deep. *)
From Coq Require Import List Bool PeanoNat NArith Lia.
From Verif Require Import Base Ids Links Tree Iter ForestSpec ListFacts TreeProofs ForestFacts IterSpec IterProofs
  PruneFacts Data Attrs Slab SlabProofs NodeApi Doc AttrFacts LinkProofs DocSpec RemoveProofs History InvProofs HistoryProofs DrainProofs.
Import ListNotations.

(* every link attribute of [n] points to a node that has an id *)
Lemma drop_name_absent x l : ~ In x (map a_name l) -> drop_name x l = l.
Proof.
  intros H. unfold drop_name. induction l as [|a l IH]; cbn in *; [easy|].
  destruct (aname_eqb (a_name a) x) eqn:E.
  - apply aname_eqb_eq in E. subst. tauto.
  - cbn. rewrite IH; tauto.
Qed.

Lemma named_target_absent x l : ~ In x (map a_name l) -> named_target l x = None.
Proof.
  intros H. unfold named_target. destruct (attrs_get_value l x) as [v|] eqn:E; [|easy].
  exfalso. apply H. clear H. induction l as [|a l IH]; cbn in *; [easy|].
  destruct (aname_eqb (a_name a) x) eqn:Ex.
  - apply aname_eqb_eq in Ex. now left.
  - right. now apply IH.
Qed.

(* copying the attributes [todo] onto [elem], which already has [done] *)
Lemma copy_attrs_spec src elem : forall todo done D,
  LInv D -> is_element D elem = true -> id_of D elem = [] -> linked_nodes D elem = [] ->
  attributes D elem = done -> NoDup (map a_name (done ++ todo)) -> src <> elem ->
  (forall a, In a todo -> stored a = a) ->
  (forall a t, In a todo -> link_target (a_value a) = Some t -> id_of D t <> [] /\ t <> src /\ t <> elem) ->
  exists D', copy_attrs src elem todo D = Ok D' /\ frame D D' /\ LInv D' /\
    (forall x, attributes D' x = if Nat.eqb x elem then done ++ todo else attributes D x) /\
    (forall b, linked_nodes D' b = linked_nodes D b ++ repeat elem (count_links b todo)).
Proof.
  induction todo as [|a todo IH]; intros done D I He Hid Hli Hat Hnd Hse Hsh Htg; cbn [copy_attrs].
  - exists D. split; [easy|]. split; [apply frame_refl|]. split; [easy|]. split.
    + intros x. rewrite app_nil_r. destruct (Nat.eqb_spec x elem) as [->|]; easy.
    + intros b. cbn. now rewrite app_nil_r.
  - assert (Hne : link_error D elem a = None).
    { unfold link_error. destruct (link_target (a_value a)) as [t|] eqn:Et; [|easy].
      destruct (Htg a t (or_introl eq_refl) Et) as (H1 & H2 & H3).
      unfold has_id. destruct (id_of D t) eqn:Ei; [easy|]. cbn. rewrite Hid, Hli. easy. }
    pose proof (set_attribute_checked_spec elem a D I He) as Hs. rewrite Hne in Hs.
    destruct Hs as (D1 & E1 & Hf1 & Ha1 & Hl1 & I1).
    assert (Hset : set_attribute elem a D = Ok D1) by (unfold set_attribute; now rewrite E1).
    assert (Hstep : (match link_target (a_value a) with
           | Some tgt => if Nat.eqb tgt src && has_id D tgt then Panic PBorrow
                         else set_attribute elem a D
           | None => set_attribute elem a D
           end) = Ok D1).
    { destruct (link_target (a_value a)) as [t|] eqn:Et; [|easy].
      destruct (Htg a t (or_introl eq_refl) Et) as (_ & H2 & _).
      destruct (Nat.eqb_spec t src); [easy|]. easy. }
    rewrite Hstep. cbn [bind].
    assert (Hnin : ~ In (a_name a) (map a_name done)).
    { rewrite map_app in Hnd. cbn in Hnd. apply NoDup_remove_2 in Hnd. rewrite in_app_iff in Hnd. tauto. }
    rewrite (Hsh a (or_introl eq_refl)) in Ha1.
    assert (Hl1' : forall b, linked_nodes D1 b = linked_nodes D b ++ repeat elem (count_links b [a])).
    { intros b. rewrite Hl1. rewrite named_target_absent by now rewrite Hat.
      unfold count_links. cbn. unfold links_to. destruct (link_target (a_value a)) as [t|]; cbn.
      - rewrite (Nat.eqb_sym t b). destruct (Nat.eqb b t); cbn; [easy|]. now rewrite app_nil_r.
      - now rewrite app_nil_r. }
    destruct (IH (done ++ [a]) D1) as (D2 & E2 & Hf2 & I2 & Ha2 & Hl2).
    + easy.
    + unfold is_element. rewrite (fr_type _ _ Hf1). exact He.
    + rewrite (fr_id _ _ Hf1). exact Hid.
    + rewrite Hl1', Hli. unfold count_links. cbn. unfold links_to.
      destruct (link_target (a_value a)) as [t|] eqn:Et; [|easy].
      destruct (Htg a t (or_introl eq_refl) Et) as (_ & _ & H3). destruct (Nat.eqb_spec t elem); easy.
    + rewrite Ha1, Nat.eqb_refl, drop_name_absent; rewrite Hat; easy.
    + now rewrite <- app_assoc.
    + easy.
    + intros b Hb. apply Hsh. now right.
    + intros b t Hb Ht. rewrite (fr_id _ _ Hf1). apply (Htg b t); [now right|easy].
    + exists D2. split; [easy|]. split; [now apply (frame_trans D D1)|]. split; [easy|]. split.
      * intros x. rewrite Ha2, <- app_assoc. destruct (Nat.eqb x elem) eqn:Ex; [easy|]. now rewrite Ha1, Ex.
      * intros b. rewrite Hl2, Hl1', <- app_assoc. f_equal.
        rewrite <- repeat_app. f_equal. change (a :: todo) with ([a] ++ todo). now rewrite count_links_app.
Qed.

(* what copy_node does to the rest of the document *)
Record copy_frame (D : dom) (users : nid -> list nid) (D' : dom) : Prop := {
  cf_root : droot D' = droot D;
  cf_fresh : fresh D <= fresh D';
  cf_old : forall x, x < fresh D ->
     storage_key D' x = storage_key D x /\ node_type D' x = node_type D x /\ tag_name D' x = tag_name D x /\
     id_of D' x = id_of D x /\ text_of D' x = text_of D x /\ attributes D' x = attributes D x /\
     linked_nodes D' x = linked_nodes D x ++ users x
}.

Theorem copy_node_spec D F n : InvF D F -> n < fresh D -> node_type D n <> NRoot -> targets_named D n ->
  exists D', copy_node n D = Ok (fresh D, D') /\ InvF D' F /\ lk D' = lk D /\ fresh D' = S (fresh D) /\
    copy_of D n D' (fresh D) /\
    copy_frame D (fun x => repeat (fresh D) (count_links x (attributes D n))) D'.
Proof.
  intros I Hn Hty Htg.
  destruct (is_element D n) eqn:He.
  - assert (Et : node_type D n = NElement) by now apply ntype_eqb_eq in He.
    unfold copy_node. rewrite Et.
    assert (Hc : exists r, create_element (tag_name D n) D = Ok r).
    { unfold create_element. rewrite (iv_tag D F I n He).
      destruct (alloc_inv D F (new_data NElement (tag_name D n) []) I) as (k & D1 & E & _); try easy.
      - intros _. now apply (iv_tag D F I).
      - rewrite E. eauto. }
    destruct Hc as ([m D1] & Ec). rewrite Ec. cbn [bind fst snd].
    destruct (create_element_inv D F _ _ I Ec) as (Hm & I1 & Hlk1 & Hf1 & Hr1 & k & Hd1). cbn [fst snd] in *. subst m.
    assert (Hold : forall x, x < fresh D -> dt D1 x = dt D x).
    { intros x Hx. rewrite Hd1. destruct (Nat.eqb_spec x (fresh D)); [lia|easy]. }
    assert (Hnew : dt D1 (fresh D) = set_key (Some k) (new_data NElement (tag_name D n) [])).
    { rewrite Hd1. now rewrite Nat.eqb_refl. }
    assert (Hatn : attributes D1 n = attributes D n) by (unfold attributes; now rewrite Hold).
    destruct (copy_attrs_spec n (fresh D) (attributes D n) [] D1) as (D2 & E2 & Hf2 & I2 & Ha2 & Hl2).
    + apply I1.
    + unfold is_element, node_type. now rewrite Hnew.
    + unfold id_of. now rewrite Hnew.
    + unfold linked_nodes. now rewrite Hnew.
    + unfold attributes. now rewrite Hnew.
    + apply (li_uniq D (iv_link D F I)).
    + lia.
    + intros a Ha. now apply (iv_shape D F I n).
    + intros a t Ha Ht.
      assert (Hpos : 0 < count_links t (attributes D n)).
      { apply count_links_pos. exists a. split; [easy|]. easy. }
      pose proof (target_exists D F n t I Hpos) as Htl.
      split; [|split].
      * unfold id_of. rewrite Hold by easy. now apply (Htg a).
      * intros ->. rewrite (li_self D (iv_link D F I)) in Hpos. lia.
      * lia.
    + rewrite E2. cbn [bind]. exists D2.
      destruct (copy_attrs_inv _ _ _ _ _ _ I1 E2) as (I2' & _).
      pose proof Hf2 as Hf2'. destruct Hf2'.
      split; [easy|]. split; [easy|]. split; [congruence|]. split; [congruence|]. split.
      * split.
        -- rewrite fr_type, Et. unfold node_type. now rewrite Hnew.
        -- rewrite fr_tag. unfold tag_name at 1. now rewrite Hnew.
        -- rewrite Ha2, Nat.eqb_refl. easy.
        -- rewrite fr_text. unfold text_of at 1. rewrite Hnew, Et. easy.
        -- rewrite fr_id. unfold id_of at 1. now rewrite Hnew.
        -- rewrite Hl2. unfold linked_nodes. rewrite Hnew. cbn.
           replace (count_links (fresh D) (attributes D n)) with 0; [easy|]. symmetry.
           destruct (count_links (fresh D) (attributes D n)) eqn:Ec2; [easy|].
           assert (0 < count_links (fresh D) (attributes D n)) by lia.
           apply (target_exists D F n) in H; [lia|easy].
        -- rewrite fr_key. unfold storage_key. now rewrite Hnew.
      * split; [congruence|lia|]. intros x Hx. rewrite fr_key, fr_type, fr_tag, fr_id, fr_text, Ha2, Hl2.
        destruct (Nat.eqb_spec x (fresh D)); [lia|].
        unfold storage_key, node_type, tag_name, id_of, text_of, attributes, linked_nodes.
        rewrite Hold by easy. repeat split.
  - destruct (iv_plain D F I n He) as (Ea & Etg & Eid).
    assert (Hcn : copy_node n D = create_node (node_type D n) (text_of D n) D).
    { unfold copy_node. destruct (node_type D n) eqn:Et; try easy. unfold is_element in He. rewrite Et in He. easy. }
    rewrite Hcn.
    assert (Hc : exists r, create_node (node_type D n) (text_of D n) D = Ok r).
    { unfold create_node. destruct (node_type D n) eqn:Et; try easy.
      - unfold is_element in He. rewrite Et in He. easy.
      - cbn. destruct (alloc_inv D F (new_data NComment (QName []) (text_of D n)) I) as (k & D1 & E & _); try easy.
        rewrite E. eauto.
      - cbn. destruct (alloc_inv D F (new_data NText (QName []) (text_of D n)) I) as (k & D1 & E & _); try easy.
        rewrite E. eauto. }
    destruct Hc as ([m D1] & Ec). rewrite Ec.
    destruct (create_node_inv D F _ _ _ I Ec) as (Hm & I1 & Hlk1 & Hf1 & Hr1 & k & Hd1). cbn [fst snd] in *. subst m.
    exists D1. split; [easy|]. split; [easy|]. split; [easy|]. split; [easy|].
    assert (Hnew : dt D1 (fresh D) = set_key (Some k) (new_data (node_type D n) (QName []) (text_of D n))).
    { rewrite Hd1. now rewrite Nat.eqb_refl. }
    split.
    + assert (N1 : node_type D1 (fresh D) = node_type D n) by (unfold node_type at 1; now rewrite Hnew).
      assert (N2 : tag_name D1 (fresh D) = QName []) by (unfold tag_name; now rewrite Hnew).
      assert (N3 : attributes D1 (fresh D) = []) by (unfold attributes; now rewrite Hnew).
      assert (N4 : text_of D1 (fresh D) = text_of D n) by (unfold text_of at 1; now rewrite Hnew).
      unfold is_element in He.
      split; rewrite ?N1, ?N2, ?N3, ?N4, ?He; try congruence;
        unfold id_of, linked_nodes, storage_key; rewrite Hnew; easy.
    + split; [easy|lia|]. intros x Hx. rewrite Ea.
      unfold storage_key, node_type, tag_name, id_of, text_of, attributes, linked_nodes.
      rewrite Hd1. destruct (Nat.eqb_spec x (fresh D)); [lia|]. cbn. rewrite app_nil_r. repeat split.
Qed.

(* a target without id makes copy_node panic *)
Lemma copy_attrs_panic src elem : forall todo done D,
  LInv D -> is_element D elem = true -> id_of D elem = [] -> linked_nodes D elem = [] ->
  attributes D elem = done -> NoDup (map a_name (done ++ todo)) -> src <> elem ->
  (forall a, In a todo -> stored a = a) ->
  (forall a t, In a todo -> link_target (a_value a) = Some t -> t <> src /\ t <> elem) ->
  (exists a t, In a todo /\ link_target (a_value a) = Some t /\ id_of D t = []) ->
  copy_attrs src elem todo D = Panic PUnwrap.
Proof.
  induction todo as [|a todo IH]; intros done D I He Hid Hli Hat Hnd Hse Hsh Htg Hex.
  { destruct Hex as (a & t & [] & _). }
  assert (Hbad : (exists t, link_target (a_value a) = Some t /\ id_of D t = []) \/
                 (forall t, link_target (a_value a) = Some t -> id_of D t <> [])).
  { destruct (link_target (a_value a)) as [t|]; [|right; easy].
    destruct (id_of D t) eqn:E; [left; eauto|right; intros ? [= <-]; congruence]. }
  destruct Hbad as [(t & Et & Ei)|Hgood].
  - cbn [copy_attrs]. rewrite Et. destruct (Htg a t (or_introl eq_refl) Et) as (H2 & _).
    destruct (Nat.eqb_spec t src); [easy|]. cbn [andb].
    pose proof (set_attribute_checked_spec elem a D I He) as Hs. unfold link_error in Hs. rewrite Et in Hs.
    unfold has_id in Hs. rewrite Ei in Hs. cbn in Hs. unfold set_attribute. rewrite Hs. easy.
  - destruct (copy_attrs_spec src elem [a] done D) as (D1 & E1 & Hf1 & I1 & Ha1 & Hl1); try easy.
    + rewrite map_app in *. cbn in *. apply NoDup_app_r in Hnd as Hnd2.
      clear - Hnd. induction (map a_name done) as [|x l IHl]; cbn in *.
      * constructor; [easy|constructor].
      * inversion Hnd; subst. constructor; [|now apply IHl]. intros H. apply H1.
        apply in_app_iff in H. apply in_app_iff. destruct H as [H|[H|[]]]; [now left|right; now left].
    + intros b [<-|[]]. apply Hsh. now left.
    + intros b t [<-|[]] Ht. destruct (Htg a t (or_introl eq_refl) Ht). split; [now apply Hgood|easy].
    + cbn [copy_attrs] in E1 |- *. apply bind_ok in E1. destruct E1 as (D1' & E1 & [= ->]). rewrite E1. cbn [bind].
      apply (IH (done ++ [a])).
      * easy.
      * unfold is_element. rewrite (fr_type _ _ Hf1). exact He.
      * rewrite (fr_id _ _ Hf1). exact Hid.
      * rewrite Hl1, Hli. cbn. unfold count_links. cbn. unfold links_to.
        destruct (link_target (a_value a)) as [t|] eqn:Et; [|easy].
        destruct (Htg a t (or_introl eq_refl) Et) as (_ & H3). destruct (Nat.eqb_spec t elem); easy.
      * now rewrite Ha1, Nat.eqb_refl.
      * now rewrite <- app_assoc.
      * easy.
      * intros b Hb. apply Hsh. now right.
      * intros b t Hb Ht. apply (Htg b t); [now right|easy].
      * destruct Hex as (b & t & [<-|Hb] & Ht & Hi).
        { exfalso. now apply (Hgood t Ht). }
        exists b, t. rewrite (fr_id _ _ Hf1). easy.
Qed.

(* copy_node succeeds exactly for nodes other than the root whose link targets have ids *)
Theorem copy_node_fails D F n : InvF D F -> n < fresh D ->
  (node_type D n = NRoot \/
   exists a t, In a (attributes D n) /\ link_target (a_value a) = Some t /\ id_of D t = []) ->
  exists k, copy_node n D = Panic k.
Proof.
  intros I Hn [H|Hex].
  - unfold copy_node. rewrite H. unfold create_node. exists PAssert. reflexivity.
  - destruct (is_element D n) eqn:He.
    2:{ destruct (iv_plain D F I n He) as (Ea & _). rewrite Ea in Hex. destruct Hex as (a & t & [] & _). }
    assert (Et : node_type D n = NElement) by now apply ntype_eqb_eq in He.
    unfold copy_node. rewrite Et.
    destruct (create_element (tag_name D n) D) as [[m D1]|k|] eqn:Ec.
    2:{ exists k. reflexivity. }
    2:{ exfalso. unfold create_element in Ec. rewrite (iv_tag D F I n He) in Ec.
        destruct (alloc_inv D F (new_data NElement (tag_name D n) []) I) as (k & D1 & E & _); try easy.
        - intros _. now apply (iv_tag D F I).
        - rewrite E in Ec. easy. }
    cbn [bind fst snd]. exists PUnwrap.
    destruct (create_element_inv D F _ _ I Ec) as (Hm & I1 & Hlk1 & Hf1 & Hr1 & k & Hd1). cbn [fst snd] in *. subst m.
    assert (Hold : forall x, x < fresh D -> dt D1 x = dt D x).
    { intros x Hx. rewrite Hd1. destruct (Nat.eqb_spec x (fresh D)); [lia|easy]. }
    assert (Hnew : dt D1 (fresh D) = set_key (Some k) (new_data NElement (tag_name D n) [])).
    { rewrite Hd1. now rewrite Nat.eqb_refl. }
    assert (Hpos : forall a t, In a (attributes D n) -> link_target (a_value a) = Some t ->
              0 < count_links t (attributes D n)).
    { intros a t Ha Ht. apply count_links_pos. exists a. easy. }
    rewrite (copy_attrs_panic n (fresh D) (attributes D n) [] D1); try easy.
    + apply I1.
    + unfold is_element, node_type. now rewrite Hnew.
    + unfold id_of. now rewrite Hnew.
    + unfold linked_nodes. now rewrite Hnew.
    + unfold attributes. now rewrite Hnew.
    + apply (li_uniq D (iv_link D F I)).
    + lia.
    + intros a Ha. now apply (iv_shape D F I n).
    + intros a t Ha Ht. specialize (Hpos a t Ha Ht). pose proof (target_exists D F n t I Hpos) as Htl.
      split; [|lia]. intros ->. rewrite (li_self D (iv_link D F I)) in Hpos. lia.
    + destruct Hex as (a & t & Ha & Ht & Hi). exists a, t. split; [easy|]. split; [easy|].
      unfold id_of. rewrite Hold; [easy|]. exact (target_exists D F n t I (Hpos a t Ha Ht)).
Qed.

(* ---- the document grows by copies of the nodes [S]: existing nodes only get new users *)
Lemma grown_refl D : grown [] D D.
Proof.
  split; try easy. intros x _. exists []. rewrite app_nil_r. repeat split; [constructor|congruence].
Qed.

Lemma grown_app S1 S2 D D1 D2 : (forall x, In x S2 -> x < fresh D) ->
  grown S1 D D1 -> grown S2 D1 D2 -> grown (S1 ++ S2) D D2.
Proof.
  intros HS G1 G2.
  assert (Hle : forall x, x < fresh D -> x < fresh D1) by (intros x; pose proof (gr_fresh _ _ _ G1); lia).
  split.
  - rewrite (gr_root _ _ _ G2). apply G1.
  - pose proof (gr_fresh _ _ _ G1). pose proof (gr_fresh _ _ _ G2). lia.
  - intros x Hx. rewrite (gr_key _ _ _ G2) by auto. now apply G1.
  - intros x Hx. rewrite (gr_type _ _ _ G2) by auto. now apply G1.
  - intros x Hx. rewrite (gr_tag _ _ _ G2) by auto. now apply G1.
  - intros x Hx. rewrite (gr_id _ _ _ G2) by auto. now apply G1.
  - intros x Hx. rewrite (gr_text _ _ _ G2) by auto. now apply G1.
  - intros x Hx. rewrite (gr_attr _ _ _ G2) by auto. now apply G1.
  - intros x Hx. destruct (gr_link _ _ _ G1 x Hx) as (u1 & E1 & F1 & T1).
    destruct (gr_link _ _ _ G2 x (Hle x Hx)) as (u2 & E2 & F2 & T2).
    exists (u1 ++ u2). split; [now rewrite E2, E1, app_assoc|]. split.
    + apply Forall_app. rewrite !Forall_forall in *. pose proof (gr_fresh _ _ _ G1). pose proof (gr_fresh _ _ _ G2).
      split; intros u Hu; [apply F1 in Hu|apply F2 in Hu]; lia.
    + intros Hne. destruct u1 as [|u u1].
      * destruct T2 as (n & a & Hn & Ha & Ht); [easy|]. exists n, a. rewrite in_app_iff.
        rewrite (gr_attr _ _ _ G1) in Ha by now apply HS. tauto.
      * destruct T1 as (n & a & Hn & Ha & Ht); [easy|]. exists n, a. rewrite in_app_iff. tauto.
Qed.

Lemma grown_sub S1 S2 D D' : (forall x, In x S1 -> In x S2) -> grown S1 D D' -> grown S2 D D'.
Proof.
  intros HS G. destruct G as [g1 g2 g3 g4 g5 g6 g7 g8 gl]. split; try assumption.
  intros x Hx. destruct (gl x Hx) as (us & E & Fa & T).
  exists us. split; [easy|]. split; [easy|]. intros H. destruct (T H) as (n & a & Hn & Hr).
  exists n, a. split; [now apply HS|easy].
Qed.

Lemma copied_mono D D1 D2 D3 : forall t u,
  (forall x, In x (preorder t) -> node_type D1 x = node_type D x /\ tag_name D1 x = tag_name D x /\
     attributes D1 x = attributes D x /\ text_of D1 x = text_of D x) ->
  (forall y, In y (preorder u) -> node_type D3 y = node_type D2 y /\ tag_name D3 y = tag_name D2 y /\
     attributes D3 y = attributes D2 y /\ text_of D3 y = text_of D2 y /\ id_of D3 y = id_of D2 y /\
     linked_nodes D3 y = linked_nodes D2 y /\ storage_key D3 y = storage_key D2 y) ->
  copied_tree D1 D2 t u -> copied_tree D D3 t u.
Proof.
  induction t as [n ts IH] using tree_ind'. intros u Hs Ht Hc. inversion Hc as [? ? m us Hco Hall]; subst.
  constructor.
  - destruct (Hs n (or_introl eq_refl)) as (S1 & S2 & S3 & S4).
    destruct (Ht m (or_introl eq_refl)) as (T1 & T2 & T3 & T4 & T5 & T6 & T7).
    destruct Hco as [c1 c2 c3 ct c5 c6 c7]. split; try congruence. now rewrite T4, ct, S4, S1.
  - clear Hc Hco. revert us Hall Ht. induction ts as [|t ts IHts]; intros us Hall Ht.
    + inversion Hall. constructor.
    + inversion Hall as [|? u ? us' H1 H2]; subst. inversion IH; subst. constructor.
      * apply H3; [| |easy].
        -- intros x Hx. apply Hs. right. cbn. apply in_app_iff. now left.
        -- intros y Hy. apply Ht. right. cbn. apply in_app_iff. now left.
      * apply IHts; [easy| |easy|].
        -- intros x [<-|Hx]; [apply Hs; now left|]. apply Hs. right. cbn. apply in_app_iff. now right.
        -- intros y [<-|Hy]; [apply Ht; now left|]. apply Ht. right. cbn. apply in_app_iff. now right.
Qed.

(* the forest grows below [p] only *)
Record grown_below (p : nid) (k : nat) (F F' : forest) : Prop := {
  gb_parent : forall x, x < k -> parent_of F' x = parent_of F x;
  gb_children : forall x, x < k -> x <> p -> children_of F' x = children_of F x;
  gb_siblings : forall x, x < k -> parent_of F x <> Some p -> siblings_of F' x = siblings_of F x
}.

Lemma iso_not_child F m p : wf_forest F -> isolated F m -> ~ In m (children_of F p).
Proof. intros W (H & _) Hc. apply (wf_child F W) in Hc. congruence. Qed.

Lemma append_iso F p m : wf_forest F -> isolated F m -> m <> p ->
  (forall q, children_of (f_append p m F) q = if Nat.eqb q p then children_of F p ++ [m] else children_of F q) /\
  grown_below p m F (f_append p m F).
Proof.
  intros W Hi Hne.
  assert (HC : forall q, children_of (f_append p m F) q = if Nat.eqb q p then children_of F p ++ [m] else children_of F q).
  { intros q. rewrite children_append, !rm_notin by now apply iso_not_child. easy. }
  split; [easy|]. split.
  - intros x Hx. rewrite parent_append by easy. destruct (Nat.eqb_spec x m); [lia|easy].
  - intros x Hx Hxp. rewrite HC. destruct (Nat.eqb_spec x p); easy.
  - intros x Hx Hpx. unfold f_append, f_set_children. cbn [siblings_of f_detach children_of].
    rewrite rm_notin by now apply iso_not_child.
    replace (mem x (children_of F p ++ [m])) with false.
    + destruct (Nat.eqb_spec x m); [lia|]. apply rm_notin. apply iso_not_sibling; [easy|easy|lia].
    + symmetry. apply mem_not_In. rewrite in_app_iff. intros [H|[H|[]]]; [|lia].
      apply (wf_child F W) in H. congruence.
Qed.

Lemma append_iso_ok L F p m : Rep L F -> isolated F m -> m <> p -> parent_of F p <> Some p ->
  exists L', append [] p m L = Ok L' /\ Rep L' (f_append p m F).
Proof.
  intros R Hi Hne HA. pose proof (r_wf _ _ R) as W.
  pose proof (append_refines [] p m L F R) as Hr. destruct (Nat.eqb_spec p m); [congruence|].
  replace (append_conflict [] p m F) with false in Hr.
  - destruct Hr as (L' & E & R' & _). now exists L'.
  - symmetry. destruct Hi as (Hp & Hs & Hc).
    assert (Ea : adjoining F m = []).
    { unfold adjoining, pred_in. rewrite Hs, Hp. cbn. now rewrite Nat.eqb_refl. }
    unfold append_conflict. rewrite Ea. cbn [existsb]. rewrite mem_cons.
    change (mem p []) with false. change (mem m []) with false.
    destruct (Nat.eqb_spec m p); [easy|]. cbn [orb f_detach children_of].
    destruct (last_error _) as [lc|] eqn:El; [|easy].
    apply last_error_In, in_rm in El. destruct El as (El & _). apply (wf_child F W) in El.
    rewrite mem_cons. change (mem lc []) with false.
    destruct (Nat.eqb_spec lc p) as [->|]; [|easy]. easy.
Qed.

Lemma grown_below_tree p k F F' t : (forall x, In x (preorder t) -> x < k /\ x <> p) ->
  grown_below p k F F' -> tree_at F t -> tree_at F' t.
Proof.
  intros H G. induction t as [n ts IH] using tree_ind'. intros Ht. inversion Ht as [? ? E Hall]; subst.
  constructor.
  - rewrite (gb_children _ _ _ _ G); [easy| |]; apply H; now left.
  - rewrite Forall_forall in *. intros c Hc. apply IH; [easy| |now apply Hall].
    intros x Hx. apply H. right. apply in_flat_map. now exists c.
Qed.

(* one step of a loop over the children of [n], whose list stays the same *)
Lemma children_next_at L F n pre l : Rep L F -> children_of F n = pre ++ l ->
  children_next L (mkChildren (hd_error l) (last_error (pre ++ l))) =
  match l with
  | [] => (None, mkChildren (hd_error l) (last_error (pre ++ l)))
  | c :: r => (Some c, mkChildren (hd_error r) (last_error (pre ++ l)))
  end.
Proof.
  intros R E. pose proof (r_wf _ _ R) as W. pose proof (children_nodup F W n) as Hnd. rewrite E in Hnd.
  assert (Hsib : forall c, In c (pre ++ l) -> siblings_of F c = pre ++ l).
  { intros c Hc. rewrite <- E. apply child_siblings; [easy|]. now rewrite E. }
  assert (Hlast : forall b, last_error (pre ++ l) = Some b -> next_sibling L b = None).
  { intros b Hb. unfold next_sibling. rewrite (r_next _ _ R).
    assert (In b (pre ++ l)) by now apply last_error_In.
    rewrite (Hsib b H). now apply succ_none_last. }
  unfold children_next, children_finished. cbn [c_back c_next].
  destruct l as [|c r]; cbn [hd_error].
  - destruct (last_error (pre ++ [])) as [b|] eqn:Eb; [|easy]. rewrite (Hlast b eq_refl). easy.
  - destruct (last_error (pre ++ c :: r)) as [b|] eqn:Eb.
    + rewrite (Hlast b eq_refl). cbn [onid_eqb]. f_equal. f_equal.
      unfold next_sibling. rewrite (r_next _ _ R), (Hsib c); [now apply succ_in_at|].
      apply in_app_iff. right. now left.
    + apply last_error_none in Eb. now destruct pre.
Qed.

Lemma copyable_grown S D D' F x : InvF D F -> x < fresh D -> grown S D D' -> copyable D x -> copyable D' x.
Proof.
  intros I Hx G (H1 & H2). split.
  - now rewrite (gr_type _ _ _ G).
  - intros a t Ha Ht. rewrite (gr_attr _ _ _ G) in Ha by easy. rewrite (gr_id _ _ _ G).
    + now apply (H2 a).
    + apply (target_exists D F x t I). apply count_links_pos. now exists a.
Qed.

Lemma grown_lk S D L D' : grown S (with_lk L D) D' -> grown S D D'.
Proof. intros []. now split. Qed.

(* what the loop over the trees [cs] achieves *)
Record deep (cs : list tree) (p : nid) (D : dom) (F : forest) (D' : dom) (F' : forest) (us : list tree) : Prop := {
  dp_inv : InvF D' F';
  dp_grown : grown (flat_map preorder cs) D D';
  dp_copy : Forall2 (copied_tree D D') cs us;
  dp_kids : children_of F' p = children_of F p ++ map t_node us;
  dp_trees : Forall (tree_at F') us;
  dp_new : forall x, In x (flat_map preorder us) <-> fresh D <= x < fresh D';
  dp_below : grown_below p (fresh D) F F'
}.

Theorem deep_copy_spec : forall t fuel D F p,
  length (preorder t) < fuel -> InvF D F -> parent_of F p <> Some p -> tree_at F t ->
  (forall x, In x (preorder t) -> x < fresh D) -> p < fresh D -> ~ In p (preorder t) ->
  (forall x, In x (flat_map preorder (t_kids t)) -> copyable D x) ->
  exists D' F' us, make_deep_copy fuel p (t_node t) D = Ok D' /\ deep (t_kids t) p D F D' F' us.
Proof.
  induction t as [n ts IH] using tree_ind'. intros fuel D F p Hfuel I HA Ht Hlt Hp Hnp Hcp.
  destruct fuel as [|fuel]; [lia|]. cbn [make_deep_copy t_node t_kids] in *.
  inversion Ht as [? ? Ek Hall]; subst.
  assert (Hpn : p <> n) by (intros ->; apply Hnp; now left).
  assert (Hn : n < fresh D) by (apply Hlt; now left).
  set (body := fun child D =>
           r <- copy_node child D ;;
           let new_node := fst r in
           L <- append [] p new_node (lk (snd r)) ;;
           let D := with_lk L (snd r) in
           if has_children (lk D) child then make_deep_copy fuel new_node child D else Ok D).
  assert (Hloop : forall cs pre fuel' D F, children_of F n = pre ++ map t_node cs ->
    length cs < fuel' -> InvF D F -> parent_of F p <> Some p -> n < fresh D -> p < fresh D ->
    (forall c, In c cs -> In c ts) -> Forall (tree_at F) cs ->
    (forall x, In x (flat_map preorder cs) -> x < fresh D /\ x <> p /\ copyable D x) ->
    exists D' F' us,
      for_children lk fuel' body (mkChildren (hd_error (map t_node cs)) (last_error (pre ++ map t_node cs))) D = Ok D' /\
      deep cs p D F D' F' us).
  { clear D F I HA Ht Hlt Hp Hcp Ek Hall Hn.
    induction cs as [|c cs IHcs]; intros pre fuel' D F Ek Hf' I HA Hn Hp Hin Hall Hx.
    - destruct fuel' as [|fuel']; [cbn in Hf'; lia|]. cbn [for_children].
      rewrite (children_next_at (lk D) F n pre _ (iv_rep D F I) Ek). cbn [map].
      exists D, F, []. split; [easy|]. split; cbn; try easy.
      + apply grown_refl.
      + now rewrite app_nil_r.
      + intros x. split; [easy|lia].
    - destruct fuel' as [|fuel']; [cbn in Hf'; lia|]. cbn [for_children].
      rewrite (children_next_at (lk D) F n pre _ (iv_rep D F I) Ek). cbn [map].
      inversion Hall as [|? ? Hc Hcs]; subst.
      assert (Hcx : forall x, In x (preorder c) -> x < fresh D /\ x <> p /\ copyable D x).
      { intros x Hxc. apply Hx. cbn. apply in_app_iff. now left. }
      assert (Hcsx : forall x, In x (flat_map preorder cs) -> x < fresh D /\ x <> p /\ copyable D x).
      { intros x Hxc. apply Hx. cbn. apply in_app_iff. now right. }
      destruct (Hcx (t_node c) (preorder_self c)) as (Hcl & Hcp & Hcc).
      (* the copy of c *)
      destruct (copy_node_spec D F (t_node c) I Hcl (proj1 Hcc) (proj2 Hcc)) as (D1 & E1 & I1 & Hlk1 & Hf1 & Hco & Hcf).
      set (m := fresh D) in *.
      pose proof (iv_iso D F I m (le_n _)) as Hiso.
      assert (Hmp : m <> p) by (unfold m; lia).
      destruct (append_iso_ok (lk D1) F p m (iv_rep D1 F I1) Hiso Hmp HA) as (L2 & E2 & R2).
      assert (Hbody : body (t_node c) D = (let D := with_lk L2 D1 in
          if has_children (lk D) (t_node c) then make_deep_copy fuel m (t_node c) D else Ok D)).
      { unfold body. rewrite E1. cbn [bind fst snd]. rewrite E2. reflexivity. }
      set (D2 := with_lk L2 D1) in *. set (F2 := f_append p m F) in *.
      assert (I2 : InvF D2 F2) by (apply append_inv; [easy|lia|lia|easy]).
      assert (W : wf_forest F) by apply (iv_rep D F I).
      assert (HA2 : parent_of F2 m <> Some m).
      { unfold F2. rewrite parent_append by easy. rewrite Nat.eqb_refl. congruence. }
      destruct (append_iso F p m W Hiso Hmp) as (Hch2 & Hb2). fold F2 in Hch2, Hb2.
      assert (G2 : grown [t_node c] D D2).
      { destruct Hcf as [Hr0 Hf0 Hold]. split; try (intros x Hxl; destruct (Hold x Hxl) as (Q1&Q2&Q3&Q4&Q5&Q6&Q7)); try easy.
        exists (repeat m (count_links x (attributes D (t_node c)))). split; [exact Q7|]. split.
        - rewrite Forall_forall. intros u Hu. apply repeat_spec in Hu. subst u. change (fresh D2) with (fresh D1). unfold m in *. lia.
        - intros Hne. destruct (count_links x (attributes D (t_node c))) eqn:Ec; [easy|].
          assert (Hpos : 0 < count_links x (attributes D (t_node c))) by lia.
          apply count_links_pos in Hpos. destruct Hpos as (a & Ha & Ht). exists (t_node c), a.
          split; [now left|]. easy. }
      assert (Hf2 : fresh D2 = S m) by exact Hf1.
      (* its subtree *)
      assert (H3 : exists D3 F3 us', body (t_node c) D = Ok D3 /\ deep (t_kids c) m D2 F2 D3 F3 us').
      { rewrite Hbody. cbv zeta. fold D2.
        assert (Htc2 : tree_at F2 c).
        { eapply grown_below_tree; [|exact Hb2|exact Hc]. intros x Hxc. destruct (Hcx x Hxc) as (? & ? & _).
          unfold m. easy. }
        assert (Hk2 : children_of F2 (t_node c) = map t_node (t_kids c)) by now apply tree_at_children.
        unfold has_children, first_child. rewrite (r_first _ _ (iv_rep D2 F2 I2)), Hk2.
        destruct (hd_error (map t_node (t_kids c))) as [c0|] eqn:Eh.
        - rewrite Forall_forall in IH. apply (IH c); [apply Hin; now left| |easy|easy|easy| | | |].
          + pose proof (kid_size (T n ts) c (Hin c (or_introl eq_refl))). cbn [preorder length] in *. lia.
          + intros x Hxc. destruct (Hcx x Hxc). lia.
          + lia.
          + intros Hxc. destruct (Hcx m Hxc). unfold m in *. lia.
          + intros x Hxc. assert (Hx' : In x (preorder c)) by (destruct c; now right).
            destruct (Hcx x Hx') as (? & ? & ?). now apply (copyable_grown [t_node c] D D2 F).
        - assert (Ek0 : t_kids c = []) by (destruct (t_kids c); [easy|discriminate]).
          rewrite Ek0. exists D2, F2, []. split; [easy|]. split; cbn; try easy.
          + apply grown_refl.
          + now rewrite app_nil_r.
          + intros x. split; [easy|lia]. }
      destruct H3 as (D3 & F3 & us' & E3 & Hd3). rewrite E3. cbn [bind].
      assert (Hg3 : grown (preorder c) D D3).
      { replace (preorder c) with ([t_node c] ++ flat_map preorder (t_kids c)) by (destruct c; easy).
        apply (grown_app _ _ D D2); [|easy|apply Hd3]. intros x Hxc. apply Hcx. destruct c. now right. }
      assert (Hle3 : fresh D2 <= fresh D3) by apply (gr_fresh _ _ _ (dp_grown _ _ _ _ _ _ _ Hd3)).
      assert (Hpl2 : p < fresh D2) by lia.
      assert (Hch3 : forall x, x < fresh D -> x <> p -> children_of F3 x = children_of F x).
      { intros x Hxl Hxp. rewrite (gb_children _ _ _ _ (dp_below _ _ _ _ _ _ _ Hd3)); [|lia|unfold m; lia].
        rewrite Hch2. now destruct (Nat.eqb_spec x p). }
      assert (Hp3 : children_of F3 p = children_of F p ++ [m]).
      { rewrite (gb_children _ _ _ _ (dp_below _ _ _ _ _ _ _ Hd3)); [|lia|congruence].
        rewrite Hch2. now rewrite Nat.eqb_refl. }
      assert (Hb3 : grown_below p (fresh D) F F3).
      { split.
        - intros x Hxl. rewrite (gb_parent _ _ _ _ (dp_below _ _ _ _ _ _ _ Hd3)) by lia. now apply Hb2.
        - easy.
        - intros x Hxl Hxp. rewrite (gb_siblings _ _ _ _ (dp_below _ _ _ _ _ _ _ Hd3)); [now apply Hb2|lia|].
          rewrite (gb_parent _ _ _ _ Hb2) by easy. intros Hpar.
          apply (parent_child F W) in Hpar. destruct Hiso as (_ & _ & Hnil). rewrite Hnil in Hpar. easy. }
      destruct (IHcs (pre ++ [t_node c]) fuel' D3 F3) as (D4 & F4 & us & E4 & Hd4).
      + rewrite Hch3; [rewrite Ek|easy|congruence]. now rewrite <- app_assoc.
      + cbn in Hf'. lia.
      + apply Hd3.
      + rewrite (gb_parent _ _ _ _ Hb3); easy.
      + lia.
      + lia.
      + intros c1 Hc1. apply Hin. now right.
      + rewrite Forall_forall in Hcs |- *. intros c1 Hc1. eapply grown_below_tree; [|exact Hb3|now apply Hcs].
        intros x Hxc. destruct (Hcsx x) as (? & ? & _); [apply in_flat_map; now exists c1|]. easy.
      + intros x Hxc. destruct (Hcsx x Hxc) as (? & ? & ?). split; [lia|]. split; [easy|].
        now apply (copyable_grown (preorder c) D D3 F).
      + rewrite <- app_assoc in E4. cbn [app] in E4. rewrite E4. exists D4, F4, (T m us' :: us). split; [easy|].
        assert (Hnew3 : forall y, In y (preorder (T m us')) -> fresh D <= y < fresh D3).
        { intros y [<-|Hy]; [unfold m; lia|]. apply (dp_new _ _ _ _ _ _ _ Hd3) in Hy. unfold m in *. lia. }
        assert (Hle4 : fresh D3 <= fresh D4) by apply (gr_fresh _ _ _ (dp_grown _ _ _ _ _ _ _ Hd4)).
        pose proof (dp_grown _ _ _ _ _ _ _ Hd4) as G4.
        pose proof (dp_grown _ _ _ _ _ _ _ Hd3) as G3.
        (* copies made before are not touched later on *)
        assert (Hno : forall S Da Db, grown S Da Db -> (forall x, In x S -> x < fresh D /\ attributes Da x = attributes D x) ->
            forall y, fresh D <= y < fresh Da -> linked_nodes Db y = linked_nodes Da y).
        { intros S Da Db G HS y Hy. destruct (gr_link _ _ _ G y) as (u & -> & _ & Hu); [lia|].
          destruct u as [|u0 u]; [now rewrite app_nil_r|]. exfalso.
          destruct Hu as (n0 & a & Hn0 & Ha & Ht0); [easy|]. destruct (HS n0 Hn0) as (Hl0 & Ea). rewrite Ea in Ha.
          assert (y < fresh D); [|lia]. apply (target_exists D F n0 y I). apply count_links_pos. now exists a. }
        assert (Hl34 : forall y, fresh D <= y < fresh D3 -> linked_nodes D4 y = linked_nodes D3 y).
        { intros y Hy. apply (Hno (flat_map preorder cs) D3 D4 G4); [|easy]. intros x Hxc.
          destruct (Hcsx x Hxc) as (? & _). split; [easy|]. now apply (gr_attr _ _ _ Hg3). }
        assert (Hl23 : linked_nodes D3 m = linked_nodes D2 m).
        { apply (Hno (flat_map preorder (t_kids c)) D2 D3 G3); [|unfold m; lia]. intros x Hxc.
          assert (Hx' : In x (preorder c)) by (destruct c; now right). destruct (Hcx x Hx') as (? & _).
          split; [easy|]. now apply (gr_attr _ _ _ G2). }
        split.
        * apply Hd4.
        * cbn [flat_map]. apply (grown_app _ _ D D3); [|easy|easy]. intros x Hxc. now apply Hcsx.
        * constructor.
          -- apply (copied_mono D D D3 D4); [easy| |].
             ++ intros y Hy. specialize (Hnew3 y Hy).
                rewrite (gr_type _ _ _ G4), (gr_tag _ _ _ G4), (gr_attr _ _ _ G4), (gr_text _ _ _ G4),
                  (gr_id _ _ _ G4), (gr_key _ _ _ G4) by lia. rewrite Hl34 by easy. repeat split.
             ++ replace c with (T (t_node c) (t_kids c)) by (destruct c; easy). constructor.
                ** assert (Hm2 : m < fresh D2) by lia.
                   assert (Hco2 : copy_of D (t_node c) D2 m) by (destruct Hco; split; easy).
                   destruct Hco2. split;
                     rewrite ?(gr_type _ _ _ G3), ?(gr_tag _ _ _ G3), ?(gr_attr _ _ _ G3), ?(gr_text _ _ _ G3),
                      ?(gr_id _ _ _ G3), ?(gr_key _ _ _ G3), ?Hl23 by lia; easy.
                ** pose proof (dp_copy _ _ _ _ _ _ _ Hd3) as Hc3.
                   assert (Hsub : forall k, In k (t_kids c) -> forall x, In x (preorder k) -> In x (preorder c)).
                   { intros k Hk x Hxk. destruct c as [n0 ks]. right. apply in_flat_map. now exists k. }
                   clear - Hc3 G2 Hcx Hsub. induction Hc3 as [|k u ks us0 Hku _ IHk]; constructor.
                   --- apply (copied_mono D D2 D3 D3); [|intros; repeat split|easy].
                       intros x Hxk. destruct (Hcx x) as (Hl & _); [apply (Hsub k); [now left|easy]|].
                       rewrite (gr_type _ _ _ G2), (gr_tag _ _ _ G2), (gr_attr _ _ _ G2), (gr_text _ _ _ G2) by easy.
                       repeat split.
                   --- apply IHk. intros k0 Hk0. apply Hsub. now right.
          -- pose proof (dp_copy _ _ _ _ _ _ _ Hd4) as Hc4. 
             clear - Hc4 Hg3 Hcsx. induction Hc4 as [|k u ks us0 Hku _ IHk]; constructor.
             ++ apply (copied_mono D D3 D4 D4); [|intros; repeat split|easy].
                intros x Hxk. destruct (Hcsx x) as (Hl & _); [cbn; apply in_app_iff; now left|].
                rewrite (gr_type _ _ _ Hg3), (gr_tag _ _ _ Hg3), (gr_attr _ _ _ Hg3), (gr_text _ _ _ Hg3) by easy.
                repeat split.
             ++ apply IHk. intros x Hxk. apply Hcsx. cbn. apply in_app_iff. now right.
        * rewrite (dp_kids _ _ _ _ _ _ _ Hd4), Hp3, <- app_assoc. reflexivity.
        * constructor; [|apply Hd4].
          eapply grown_below_tree; [|apply (dp_below _ _ _ _ _ _ _ Hd4)|].
          -- intros y Hy. specialize (Hnew3 y Hy). split; lia.
          -- constructor; [|apply Hd3].
             rewrite (dp_kids _ _ _ _ _ _ _ Hd3), Hch2. destruct (Nat.eqb_spec m p); [easy|].
             destruct Hiso as (_ & _ & ->). easy.
        * intros x. cbn [flat_map]. rewrite in_app_iff. split.
          -- intros [Hxu|Hxu]; [apply Hnew3 in Hxu; lia|]. apply (dp_new _ _ _ _ _ _ _ Hd4) in Hxu. lia.
          -- intros Hxu. destruct (Nat.lt_ge_cases x (fresh D3)) as [Hx3|Hx3].
             ++ left. destruct (Nat.eq_dec m x) as [Hmx|Hmx]; [left; exact Hmx|]. right.
                apply (dp_new _ _ _ _ _ _ _ Hd3). unfold m in *. lia.
             ++ right. apply (dp_new _ _ _ _ _ _ _ Hd4). lia.
        * pose proof (dp_below _ _ _ _ _ _ _ Hd4) as Hb4. split.
          -- intros x Hxl. rewrite (gb_parent _ _ _ _ Hb4) by lia. now apply Hb3.
          -- intros x Hxl Hxp. rewrite (gb_children _ _ _ _ Hb4); [|lia|easy]. now apply Hb3.
          -- intros x Hxl Hxp. rewrite (gb_siblings _ _ _ _ Hb4); [now apply Hb3|lia|].
             now rewrite (gb_parent _ _ _ _ Hb3). }
  destruct (Hloop ts [] fuel D F) as (D' & F' & us & E & Hd); try easy.
  - pose proof (kids_length (T n ts)). cbn [t_kids preorder length] in *. lia.
  - intros x Hx. split; [apply Hlt; now right|]. split; [|now apply Hcp]. intros ->. apply Hnp. now right.
  - exists D', F', us. split; [|easy]. fold body. unfold children, first_child, last_child.
    rewrite (r_first _ _ (iv_rep D F I)), (r_last _ _ (iv_rep D F I)), Ek. exact E.
Qed.

Theorem copy_node_deep_spec D F t : InvF D F -> tree_at F t -> t_node t < fresh D ->
  (forall x, In x (preorder t) -> copyable D x) ->
  exists D' F' u, copy_node_deep (t_node t) D = Ok (t_node u, D') /\ InvF D' F' /\
    copied_tree D D' t u /\ tree_at F' u /\ parent_of F' (t_node u) = None /\ siblings_of F' (t_node u) = [t_node u] /\
    (forall x, In x (preorder u) <-> fresh D <= x < fresh D') /\ grown (preorder t) D D' /\
    (forall x, x < fresh D -> parent_of F' x = parent_of F x /\ siblings_of F' x = siblings_of F x /\
                              children_of F' x = children_of F x).
Proof.
  intros I Ht Hn Hcp. pose proof (r_wf _ _ (iv_rep D F I)) as W.
  pose proof (tree_nodes_exist D F t I Ht Hn) as Hlt.
  destruct (Hcp _ (preorder_self t)) as (Hnr & Htg).
  destruct (copy_node_spec D F (t_node t) I Hn Hnr Htg) as (D1 & E1 & I1 & Hlk1 & Hf1 & Hco & Hcf).
  set (m := fresh D) in *. pose proof (iv_iso D F I m (le_n _)) as Hiso.
  assert (G1 : grown [t_node t] D D1).
  { destruct Hcf as [Hr0 Hf0 Hold]. split; try (intros x Hxl; destruct (Hold x Hxl) as (Q1&Q2&Q3&Q4&Q5&Q6&Q7)); try easy.
    exists (repeat m (count_links x (attributes D (t_node t)))). split; [exact Q7|]. split.
    - rewrite Forall_forall. intros u Hu. apply repeat_spec in Hu. subst u. unfold m in *. lia.
    - intros Hne. destruct (count_links x (attributes D (t_node t))) eqn:Ec; [easy|].
      assert (Hpos : 0 < count_links x (attributes D (t_node t))) by lia.
      apply count_links_pos in Hpos. destruct Hpos as (a & Ha & Hta). exists (t_node t), a. split; [now left|easy]. }
  destruct (deep_copy_spec t (enough D) D1 F m) as (D2 & F2 & us & E2 & Hd).
  - pose proof (tree_size D F t I Ht Hn). unfold enough. lia.
  - easy.
  - rewrite (proj1 Hiso). easy.
  - easy.
  - intros x Hx. apply Hlt in Hx. unfold m in *. lia.
  - lia.
  - intros Hx. apply Hlt in Hx. unfold m in *. lia.
  - intros x Hx. assert (Hx' : In x (preorder t)) by (destruct t; now right).
    apply (copyable_grown [t_node t] D D1 F); try easy; auto.
  - pose proof (dp_grown _ _ _ _ _ _ _ Hd) as G2. pose proof (dp_below _ _ _ _ _ _ _ Hd) as Hb.
    assert (Hm1 : m < fresh D1) by lia.
    assert (Hl2 : linked_nodes D2 m = linked_nodes D1 m).
    { destruct (gr_link _ _ _ G2 m Hm1) as (u & -> & _ & Hu). destruct u as [|u0 u]; [now rewrite app_nil_r|].
      exfalso. destruct Hu as (n0 & a & Hn0 & Ha & Ht0); [easy|].
      assert (Hn0' : In n0 (preorder t)) by (destruct t; now right). rewrite (gr_attr _ _ _ G1) in Ha by auto.
      assert (m < fresh D); [|unfold m in *; lia]. apply (target_exists D F n0 m I). apply count_links_pos. now exists a. }
    assert (Hno : ~ (exists x, parent_of F x = Some m)).
    { intros (x & Hx). apply (parent_child F W) in Hx. destruct Hiso as (_ & _ & Hnil). now rewrite Hnil in Hx. }
    exists D2, F2, (T m us). split.
    { unfold copy_node_deep. rewrite E1. cbn [bind fst snd]. rewrite E2. easy. }
    split; [apply Hd|]. split.
    { replace t with (T (t_node t) (t_kids t)) by (destruct t; easy). constructor.
      - destruct Hco. split;
          rewrite ?(gr_type _ _ _ G2), ?(gr_tag _ _ _ G2), ?(gr_attr _ _ _ G2), ?(gr_text _ _ _ G2),
             ?(gr_id _ _ _ G2), ?(gr_key _ _ _ G2), ?Hl2 by lia; easy.
      - pose proof (dp_copy _ _ _ _ _ _ _ Hd) as Hc.
        assert (Hsub : forall k, In k (t_kids t) -> forall x, In x (preorder k) -> x < fresh D).
        { intros k Hk x Hxk. apply Hlt. destruct t as [n0 ks]. right. apply in_flat_map. now exists k. }
        clear - Hc G1 Hsub. induction Hc as [|k u ks us0 Hku _ IHk]; constructor.
        + apply (copied_mono D D1 D2 D2); [|intros; repeat split|easy].
          intros x Hxk. specialize (Hsub k (or_introl eq_refl) x Hxk).
          rewrite (gr_type _ _ _ G1), (gr_tag _ _ _ G1), (gr_attr _ _ _ G1), (gr_text _ _ _ G1) by easy. repeat split.
        + apply IHk. intros k0 Hk0. apply Hsub. now right. }
    destruct Hiso as (Hi1 & Hi2 & Hi3).
    split. { constructor; [|apply Hd]. rewrite (dp_kids _ _ _ _ _ _ _ Hd), Hi3. easy. }
    cbn [t_node].
    split. { now rewrite (gb_parent _ _ _ _ Hb). }
    split. { rewrite (gb_siblings _ _ _ _ Hb); [easy|easy|congruence]. }
    pose proof (gr_fresh _ _ _ G2).
    split.
    { intros x. split.
      - intros [<-|Hx]; [unfold m in *; lia|]. apply (dp_new _ _ _ _ _ _ _ Hd) in Hx. unfold m in *; lia.
      - intros Hx. destruct (Nat.eq_dec m x) as [Hmx|Hmx]; [left; exact Hmx|]. right.
        apply (dp_new _ _ _ _ _ _ _ Hd). unfold m in *. lia. }
    split.
    { replace (preorder t) with ([t_node t] ++ flat_map preorder (t_kids t)) by (destruct t; easy).
      apply (grown_app _ _ D D1); [|easy|easy]. intros x Hx. apply Hlt. destruct t. now right. }
    intros x Hx. rewrite (gb_parent _ _ _ _ Hb), (gb_children _ _ _ _ Hb), (gb_siblings _ _ _ _ Hb); try (unfold m in *; lia); try easy.
    intros Hp. apply Hno. now exists x.
Qed.
