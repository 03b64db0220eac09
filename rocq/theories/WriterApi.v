(* The writer properties in the form of the statements. *)
From Coq Require Import String List Bool PeanoNat NArith Permutation Sorted Lia.
From Verif Require Import Base Ids Names NamesProofs Links Tree Iter ForestSpec TreeSpec ListFacts TreeProofs ForestFacts
  IterSpec IterProofs Data Attrs AttrFacts Slab NodeApi Doc History LinkProofs InvProofs HistoryProofs TreeApi ApiProofs
  Text TextSpec Writer WriterSpec WriterProofs.
Import ListNotations.
Open Scope nat_scope.
Open Scope list_scope.

(* ---- the tree *)
Theorem writer_tree W D F ts : reachable D -> shows (lk D) F -> inner D F ->
  tree_at F (T (droot D) ts) ->
  exists evs items, write_dom W D = Ok evs /\ read_back evs = Some items /\ Forall2 (describes W D F) ts items.
Proof.
  intros H S Hin Ht.
  destruct (write_dom_spec W D F (shows_inv D F H S) Hin ts Ht) as (evs & items & H1 & H2 & H3 & _).
  now exists evs, items.
Qed.

(* ---- start tags *)
Lemma occurs_describes W D F : wf_forest F -> forall ts items, Forall2 (describes W D F) ts items ->
  forall x, occurs x items -> exists t, describes W D F t x /\ exists u, In u ts /\ In (t_node t) (preorder u).
Proof.
  intros Wf ts items H x Ho. revert ts H. induction Ho as [l Hx|b1 name attrs kids b2 l Hx Ho IH]; intros ts H.
  - induction H as [|t y ts l Hd H IH]; [easy|]. destruct Hx as [->|Hx].
    + exists t. split; [easy|]. exists t. split; [now left|]. apply preorder_self.
    + destruct (IH Hx) as (t' & Ht' & u & Hu & Hin). exists t'. split; [easy|]. exists u. split; [now right|easy].
  - induction H as [|t y ts l Hd H IH2]; [easy|]. destruct Hx as [->|Hx].
    + inversion Hd as [? ? n ts' ? ? ? Hty Hl Hs Hk| |]; subst. destruct (IH ts' Hk) as (t' & Ht' & u & Hu & Hin).
      exists t'. split; [easy|]. exists (T n ts'). split; [now left|]. cbn. right. apply in_flat_map. now exists u.
    + destruct (IH2 Hx) as (t' & Ht' & u & Hu & Hin). exists t'. split; [easy|]. exists u. split; [now right|easy].
Qed.

Lemma describes_occurs W D F : forall ts items, Forall2 (describes W D F) ts items ->
  forall n, In n (flat_map preorder ts) -> exists t x, t_node t = n /\ describes W D F t x /\ occurs x items.
Proof.
  assert (G : forall t x, describes W D F t x -> forall n, In n (preorder t) ->
    exists t' x', t_node t' = n /\ describes W D F t' x' /\ occurs x' [x]).
  { induction t as [m ts IH] using tree_ind'. intros x Hd n Hn. cbn in Hn. destruct Hn as [->|Hn].
    - exists (T n ts), x. split; [easy|]. split; [easy|]. constructor. now left.
    - inversion Hd as [b1 b2 ? ? name attrs kids Hty Hl Hs Hk| |]; subst; [|easy..].
      assert (Hg : exists t' x', t_node t' = n /\ describes W D F t' x' /\ occurs x' kids).
      { clear Hd. induction Hk as [|t y ts kids Hty' Hk IHk]; [easy|]. inversion IH as [|? ? IHt IHr]; subst.
        cbn in Hn. apply in_app_or in Hn. destruct Hn as [Hn|Hn].
        - destruct (IHt y Hty' n Hn) as (t' & x' & E & Hd & Ho). exists t', x'. split; [easy|]. split; [easy|].
          inversion Ho as [? Hin|? ? ? ? ? ? Hin Ho']; subst.
          + destruct Hin as [->|[]]. constructor. now left.
          + destruct Hin as [->|[]]. eapply oc_in; [now left|easy].
        - destruct (IHk IHr Hn) as (t' & x' & E & Hd & Ho). exists t', x'. split; [easy|]. split; [easy|].
          inversion Ho as [? Hin|? ? ? ? ? ? Hin Ho']; subst; [constructor; now right|eapply oc_in; [right; exact Hin|easy]]. }
      destruct Hg as (t' & x' & E & Hd' & Ho). exists t', x'. split; [easy|]. split; [easy|].
      eapply oc_in; [now left|exact Ho]. }
  intros ts items H n Hn. induction H as [|t y ts items Hd H IH]; [easy|]. cbn in Hn. apply in_app_or in Hn.
  destruct Hn as [Hn|Hn].
  - destruct (G t y Hd n Hn) as (t' & x' & E & Hd' & Ho). exists t', x'. split; [easy|]. split; [easy|].
    inversion Ho as [? Hin|? ? ? ? ? ? Hin Ho']; subst.
    + destruct Hin as [->|[]]. constructor. now left.
    + destruct Hin as [->|[]]. eapply oc_in; [now left|easy].
  - destruct (IH Hn) as (t' & x' & E & Hd' & Ho). exists t', x'. split; [easy|]. split; [easy|].
    inversion Ho as [? Hin|? ? ? ? ? ? Hin Ho']; subst; [constructor; now right|eapply oc_in; [right; exact Hin|easy]].
Qed.

(* All start tags of the output are those of the elements of the document. *)
Theorem writer_tags W D F ts : reachable D -> shows (lk D) F -> inner D F ->
  tree_at F (T (droot D) ts) ->
  exists evs items, write_dom W D = Ok evs /\ read_back evs = Some items /\
    (forall n, anc_or_self F (droot D) n -> is_element D n = true ->
       exists b1 name attrs kids b2, occurs (XElement b1 name attrs kids b2) items /\
         tag_label (tag_name D n) name /\ start_tag W D F n attrs) /\
    (forall b1 name attrs kids b2, occurs (XElement b1 name attrs kids b2) items ->
       exists n, anc_or_self F (droot D) n /\ is_element D n = true /\
         tag_label (tag_name D n) name /\ start_tag W D F n attrs).
Proof.
  intros H S Hin Ht. pose proof (sh_wf _ _ S) as Wf. pose proof (shows_inv D F H S) as I.
  destruct (writer_tree W D F ts H S Hin Ht) as (evs & items & H1 & H2 & H3). exists evs, items.
  split; [exact H1|]. split; [exact H2|]. split.
  - intros n Hn He. apply (preorder_iff F _ n Wf Ht) in Hn. cbn in Hn. destruct Hn as [<-|Hn].
    + exfalso. pose proof (proj2 (iv_root D F I (droot D) (iv_rlt D F I)) eq_refl) as Hty. unfold is_element in He.
      now rewrite Hty in He.
    + destruct (describes_occurs W D F ts items H3 n Hn) as (t & x & E & Hd & Ho).
      unfold is_element in He. apply ntype_eqb_eq in He.
      inversion Hd as [b1 b2 m ts' name attrs kids Hty Hl Hs Hk|b m Hty|b m Hty]; subst; cbn in *; [|congruence..].
      now exists b1, name, attrs, kids, b2.
  - intros b1 name attrs kids b2 Ho. destruct (occurs_describes W D F Wf ts items H3 _ Ho) as (t & Hd & u & Hu & Hnu).
    inversion Hd as [? ? n ts' ? ? ? Hty Hl Hs Hk| |]; subst. exists n. split; [|split; [|now split]].
    + apply (preorder_iff F _ n Wf Ht). cbn. right. apply in_flat_map. now exists u.
    + unfold is_element. now rewrite Hty.
Qed.

(* ---- names in a start tag *)
Lemma label_cases a s : attr_label a s ->
  a = QId A_Href /\ s = lit "xlink:href" \/ a = QId A_Space /\ s = lit "xml:space" \/
  (exists x, a = QId x /\ attribute_from_str s = Ok (Some x)) \/ a = QName s.
Proof.
  intros [| |x t H1 H2 H3|t]; [now left|now right; left| |now right; right; right].
  right. right. left. exists x. split; [easy|]. now apply (proj1 attribute_bijection).
Qed.
Lemma label_inj a b s : attr_label a s -> attr_label b s ->
  (forall x, a = QName x -> attribute_from_str x = Ok None /\ x <> lit "xlink:href" /\ x <> lit "xml:space") ->
  (forall x, b = QName x -> attribute_from_str x = Ok None /\ x <> lit "xlink:href" /\ x <> lit "xml:space") -> a = b.
Proof.
  assert (Hn1 : attribute_from_str (lit "xlink:href") = Ok None) by (vm_compute; reflexivity).
  assert (Hn2 : attribute_from_str (lit "xml:space") = Ok None) by (vm_compute; reflexivity).
  assert (Hne : lit "xlink:href" <> lit "xml:space") by (intros E; discriminate E).
  intros Ha Hb Ca Cb. apply label_cases in Ha, Hb.
  assert (Ga : forall x, a = QName x -> x = s -> attribute_from_str s = Ok None /\ s <> lit "xlink:href" /\ s <> lit "xml:space").
  { intros x E <-. now apply Ca. }
  assert (Gb : forall x, b = QName x -> x = s -> attribute_from_str s = Ok None /\ s <> lit "xlink:href" /\ s <> lit "xml:space").
  { intros x E <-. now apply Cb. }
  destruct Ha as [(-> & ->)|[(-> & ->)|[(x & -> & Ex)| ->]]]; destruct Hb as [(-> & Eb)|[(-> & Eb)|[(y & -> & Ey)| ->]]];
    try reflexivity; try congruence.
  - destruct (Gb _ eq_refl eq_refl) as (_ & C & _). congruence.
  - destruct (Gb _ eq_refl eq_refl) as (_ & _ & C). congruence.
  - destruct (Gb _ eq_refl eq_refl) as (C & _ & _). congruence.
  - destruct (Ga _ eq_refl eq_refl) as (_ & C & _). congruence.
  - destruct (Ga _ eq_refl eq_refl) as (_ & _ & C). congruence.
  - destruct (Ga _ eq_refl eq_refl) as (C & _ & _). congruence.
Qed.
Lemma NoDup_app_intro {A} (l1 l2 : list A) : NoDup l1 -> NoDup l2 -> (forall x, In x l1 -> ~ In x l2) -> NoDup (l1 ++ l2).
Proof.
  induction 1 as [|x l1 Hx H IH]; intros H2 Hd; [easy|]. cbn. constructor.
  - rewrite in_app_iff. intros [H1|H1]; [easy|]. apply (Hd x); [now left|easy].
  - apply IH; [easy|]. intros y Hy. apply Hd. now right.
Qed.

Lemma written_names W D l out : Forall2 (written W D) l out -> forall s, In s (map fst out) ->
  exists a, In a l /\ attr_label (a_name a) s.
Proof.
  induction 1 as [|a x l out (Ha & _) H IH]; intros s Hs; [easy|]. destruct Hs as [<-|Hs].
  - exists a. split; [now left|easy].
  - destruct (IH s Hs) as (b & Hb & Hl). exists b. split; [now right|easy].
Qed.

Lemma written_app W D l1 l2 o1 o2 : Forall2 (written W D) l1 o1 -> Forall2 (written W D) l2 o2 ->
  Forall2 (written W D) (l1 ++ l2) (o1 ++ o2).
Proof. apply Forall2_app. Qed.

Lemma clash_custom a x : no_clash a -> a_name a = QName x ->
  attribute_from_str x = Ok None /\ x <> lit "xlink:href" /\ x <> lit "xml:space".
Proof. unfold no_clash. intros H E. rewrite E in H. tauto. Qed.

Lemma written_nodup W D l out : NoDup (map a_name l) -> (forall a, In a l -> no_clash a) ->
  Forall2 (written W D) l out -> NoDup (map fst out).
Proof.
  intros Hn Hc H. revert Hn Hc. induction H as [|a x l out (Ha & Hv) H IH]; intros Hn Hc; [constructor|].
  inversion Hn; subst. cbn. constructor; [|apply IH; [easy|]; intros b Hb; apply Hc; now right].
  intros Hin. destruct (written_names W D l out H _ Hin) as (b & Hb & Hl).
  assert (E : a_name a = a_name b).
  { apply (label_inj _ _ _ Ha Hl).
    - intros y. apply clash_custom, Hc. now left.
    - intros y. apply clash_custom, Hc. now right. }
  apply H2. rewrite E. now apply in_map.
Qed.

Lemma label_clash a s : no_clash a -> attr_label (a_name a) s -> s <> lit "id" /\ s <> lit "xmlns" /\ s <> lit "xmlns:xlink".
Proof.
  assert (Hn1 : attribute_from_str (lit "id") = Ok (Some A_Id)) by (vm_compute; reflexivity).
  assert (Hn2 : attribute_from_str (lit "xmlns") = Ok (Some A_Xmlns)) by (vm_compute; reflexivity).
  assert (Hn3 : attribute_from_str (lit "xmlns:xlink") = Ok None) by (vm_compute; reflexivity).
  unfold no_clash. intros Hc Hl. destruct Hl as [| |x t H1 H2 H3|t].
  - split; [|split]; intros E; discriminate E.
  - split; [|split]; intros E; discriminate E.
  - assert (Hx : attribute_from_str t = Ok (Some x)) by (now apply (proj1 attribute_bijection)).
    destruct Hc as (C1 & C2). split; [|split]; intros ->; congruence.
  - destruct Hc as (C1 & C2 & _). split; [|split]; intros ->; congruence.
Qed.

Section Tag.
  Context (W : writers) (D : dom) (F : forest) (n : nid) (out : list (str * str)).
  Context (Hu : NoDup (map a_name (attributes D n))) (Hc : forall a, In a (attributes D n) -> no_clash a).
  Context (Hs : start_tag W D F n out).

  Lemma tag_parts : exists ns idp rest, out = ns ++ idp ++ rest /\ namespaces D F n ns /\
    idp = (if str_eqb (id_of D n) [] then [] else [(lit "id", id_of D n)]) /\
    NoDup (map fst rest) /\
    (forall s, In s (map fst rest) -> s <> lit "id" /\ s <> lit "xmlns" /\ s <> lit "xmlns:xlink").
  Proof.
    destruct Hs as (ns & svg & so & co & -> & Hns & Hp & Hsort & H1 & H2).
    exists ns, (if str_eqb (id_of D n) [] then [] else [(lit "id", id_of D n)]), (so ++ co).
    split; [reflexivity|]. split; [exact Hns|]. split; [reflexivity|].
    set (l := svg ++ filter (fun a => negb (is_svg_attr a)) (attributes D n)).
    assert (Hl : forall a, In a l -> In a (attributes D n)).
    { intros a Ha. apply in_app_or in Ha. destruct Ha as [Ha|Ha].
      - apply (Permutation_in _ Hp) in Ha. now apply filter_In in Ha.
      - now apply filter_In in Ha. }
    assert (Hw : Forall2 (written W D) l (so ++ co)) by (now apply Forall2_app).
    split.
    - apply (written_nodup W D l); [| |exact Hw].
      + unfold l. rewrite map_app. apply NoDup_app_intro.
        * apply (Permutation_NoDup (l := map a_name (filter (fun a => is_svg_attr a && negb (bad_unicode a)) (attributes D n)))).
          -- apply Permutation_map. now apply Permutation_sym.
          -- now apply NoDup_filter_names.
        * now apply NoDup_filter_names.
        * intros x Hx Hy. apply in_map_iff in Hx, Hy. destruct Hx as (a & <- & Ha). destruct Hy as (b & Eb & Hb).
          apply (Permutation_in _ Hp) in Ha. apply filter_In in Ha, Hb. destruct Ha as (_ & Ha). destruct Hb as (_ & Hb).
          apply andb_true_iff in Ha. destruct Ha as (Ha & _). unfold is_svg_attr in *. rewrite Eb in Hb.
          destruct (a_name a); discriminate.
      + intros a Ha. apply Hc. now apply Hl.
    - intros s Hin. destruct (written_names W D l _ Hw s Hin) as (a & Ha & Hlab). apply (label_clash a); [|easy].
      apply Hc. now apply Hl.
  Qed.

  Lemma tag_names : NoDup (map fst out) /\
    (In (lit "xmlns") (map fst out) <-> top_svg D F n) /\
    (In (lit "xmlns:xlink") (map fst out) <-> top_svg D F n /\ needs_xlink D F n).
  Proof.
    destruct tag_parts as (ns & idp & rest & -> & Hns & -> & Hnd & Hr). rewrite !map_app.
    set (idn := map fst (if str_eqb (id_of D n) [] then [] else [(lit "id", id_of D n)])).
    assert (Hid : forall s, In s idn -> s = lit "id").
    { unfold idn. intros s H. destruct (str_eqb (id_of D n) []); [easy|]. cbn in H. now destruct H. }
    assert (Hidn : NoDup idn).
    { unfold idn. destruct (str_eqb (id_of D n) []); repeat constructor. easy. }
    assert (H2 : forall s, In s (idn ++ map fst rest) -> s <> lit "xmlns" /\ s <> lit "xmlns:xlink").
    { intros s H. apply in_app_or in H. destruct H as [H|H]; [apply Hid in H; subst s; split; intros E; discriminate E|].
      apply Hr in H. tauto. }
    assert (Hnd2 : NoDup (idn ++ map fst rest)).
    { apply NoDup_app_intro; [easy|easy|]. intros s Ha Hb. apply Hid in Ha. apply Hr in Hb. tauto. }
    assert (Hx : lit "xmlns" <> lit "xmlns:xlink") by (intros E; discriminate E).
    split; [|split].
    - apply NoDup_app_intro; [|exact Hnd2|].
      + destruct Hns; cbn; repeat constructor; cbn; try easy. intros [E|[]]. discriminate E.
      + intros s Ha Hb. apply H2 in Hb. destruct Hb as (B1 & B2). destruct Hns as [| |]; cbn [map In] in Ha; [easy| |].
        * destruct Ha as [Ha|[]]. now apply B1.
        * destruct Ha as [Ha|[Ha|[]]]; [now apply B1|now apply B2].
    - rewrite in_app_iff. split.
      + intros [Ha|Ha]; [|apply H2 in Ha; tauto]. now destruct Hns.
      + intros Ht. left. destruct Hns; [easy|now left|now left].
    - rewrite in_app_iff. split.
      + intros [Ha|Ha]; [|apply H2 in Ha; tauto]. destruct Hns as [| |]; cbn in Ha; [easy| |easy].
        destruct Ha as [E|[]]. now destruct Hx.
      + intros (Ht & Hn). left. destruct Hns; [easy|easy|]. right. now left.
  Qed.
End Tag.

Theorem writer_unique W D F ts : reachable D -> shows (lk D) F -> inner D F ->
  tree_at F (T (droot D) ts) ->
  (forall n a, anc_or_self F (droot D) n -> In a (attributes D n) -> no_clash a) ->
  exists evs items, write_dom W D = Ok evs /\ read_back evs = Some items /\
    (forall b1 name attrs kids b2, occurs (XElement b1 name attrs kids b2) items -> NoDup (map fst attrs)).
Proof.
  intros H S Hin Ht Hc. destruct (writer_tags W D F ts H S Hin Ht) as (evs & items & H1 & H2 & _ & H3).
  exists evs, items. split; [exact H1|]. split; [exact H2|]. intros b1 name attrs kids b2 Ho.
  destruct (H3 _ _ _ _ _ Ho) as (n & Hn & _ & _ & Hs).
  apply (tag_names W D F n attrs); [apply (li_uniq D (iv_link D F (shows_inv D F H S)))| |exact Hs].
  intros a. now apply Hc.
Qed.

Theorem writer_namespaces W D F ts : reachable D -> shows (lk D) F -> inner D F ->
  tree_at F (T (droot D) ts) ->
  (forall n a, anc_or_self F (droot D) n -> In a (attributes D n) -> no_clash a) ->
  exists evs items, write_dom W D = Ok evs /\ read_back evs = Some items /\
    (forall b1 name attrs kids b2, occurs (XElement b1 name attrs kids b2) items ->
       exists n, anc_or_self F (droot D) n /\ is_element D n = true /\ start_tag W D F n attrs /\
         (In (lit "xmlns") (map fst attrs) <-> top_svg D F n) /\
         (In (lit "xmlns:xlink") (map fst attrs) <-> top_svg D F n /\ needs_xlink D F n)).
Proof.
  intros H S Hin Ht Hc. destruct (writer_tags W D F ts H S Hin Ht) as (evs & items & H1 & H2 & _ & H3).
  exists evs, items. split; [exact H1|]. split; [exact H2|]. intros b1 name attrs kids b2 Ho.
  destruct (H3 _ _ _ _ _ Ho) as (n & Hn & He & _ & Hs). exists n. split; [easy|]. split; [easy|]. split; [easy|].
  apply (tag_names W D F n attrs); [apply (li_uniq D (iv_link D F (shows_inv D F H S)))| |exact Hs].
  intros a. now apply Hc.
Qed.

Theorem writer_preserve W D F ts : reachable D -> shows (lk D) F -> inner D F ->
  tree_at F (T (droot D) ts) -> flat_text D F ->
  exists evs items, write_dom W D = Ok evs /\ read_back evs = Some items /\ Forall (preserved false) items.
Proof.
  intros H S Hin Ht Hf.
  destruct (write_dom_spec W D F (shows_inv D F H S) Hin ts Ht) as (evs & items & H1 & H2 & H3 & H4 & _).
  exists evs, items. split; [easy|]. split; [easy|]. now apply H4.
Qed.

Theorem writer_flags W D F ts : reachable D -> shows (lk D) F -> inner D F -> tree_at F (T (droot D) ts) ->
  exists evs items last, write_dom W D = Ok evs /\ read_back evs = Some items /\ Forall2 (describes W D F) ts items /\
    flagged_all D false ts items last.
Proof.
  intros H S Hin Ht.
  destruct (write_dom_spec W D F (shows_inv D F H S) Hin ts Ht) as (evs & items & H1 & H2 & H3 & _ & last & H5).
  now exists evs, items, last.
Qed.

(* ---- exactly which names a start tag has *)
Lemma label_fun a s t : attr_label a s -> attr_label a t -> s = t.
Proof. intros H1 H2. destruct H1; inversion H2; congruence. Qed.
Lemma in_written W D l out : Forall2 (written W D) l out -> forall s, In s (map fst out) <-> exists a, In a l /\ attr_label (a_name a) s.
Proof.
  intros H s. split; [now apply (written_names W D)|]. intros (a & Ha & Hl). induction H as [|b x l out (Hb & _) H IH]; [easy|].
  destruct Ha as [->|Ha]; [left; now apply (label_fun (a_name a))|right; now apply IH].
Qed.
Theorem tag_names_exact W D F n out : start_tag W D F n out -> forall s, In s (map fst out) <-> names_in_tag D F n s.
Proof.
  intros (ns & svg & so & co & -> & Hns & Hp & _ & H1 & H2) s. rewrite !map_app, !in_app_iff, (in_written W D svg so H1), (in_written W D _ co H2).
  assert (Hn : In s (map fst ns) <-> s = lit "xmlns" /\ top_svg D F n \/ s = lit "xmlns:xlink" /\ top_svg D F n /\ needs_xlink D F n).
  { destruct Hns as [N|T N|T N]; cbn; split.
    - easy.
    - intros [(_ & H)|(_ & H & _)]; easy.
    - intros [<-|[]]. now left.
    - intros [(-> & _)|(_ & _ & H)]; [now left|easy].
    - intros [<-|[<-|[]]]; [now left|now right].
    - intros [(-> & _)|(-> & _)]; [now left|right; now left]. }
  assert (Hi : In s (map fst (if str_eqb (id_of D n) [] then [] else [(lit "id", id_of D n)])) <-> s = lit "id" /\ id_of D n <> []).
  { destruct (str_eqb (id_of D n) []) eqn:E; cbn; split.
    - easy.
    - intros (_ & H). apply str_eqb_eq in E. congruence.
    - intros [<-|[]]. split; [easy|]. intros E'. apply str_eqb_eq in E'. congruence.
    - intros (-> & _). now left. }
  rewrite Hn, Hi. unfold names_in_tag, is_written. split.
  - intros [[H|H]|[(Hs & H)|[(a & Ha & Hl)|(a & Ha & Hl)]]]; auto.
    + right. right. right. exists a. apply (Permutation_in _ Hp) in Ha. apply filter_In in Ha. destruct Ha as (Ha & Hb). apply andb_true_iff in Hb.
      split; [|easy]. split; [easy|]. now apply negb_true_iff.
    + right. right. right. exists a. apply filter_In in Ha. destruct Ha as (Ha & Hb). split; [|easy]. split; [easy|].
      unfold is_svg_attr, bad_unicode in *. destruct (a_name a); [discriminate|reflexivity].
  - intros [H|[H|[H|(a & (Ha & Hb) & Hl)]]]; [tauto|tauto|tauto|]. right. right. destruct (is_svg_attr a) eqn:E.
    + left. exists a. split; [|easy]. apply (Permutation_in _ (Permutation_sym Hp)). apply filter_In. split; [easy|]. now rewrite E, Hb.
    + right. exists a. split; [|easy]. apply filter_In. now rewrite E.
Qed.
Lemma written_nodup_iff W D l out : NoDup (map a_name l) -> Forall2 (written W D) l out ->
  (NoDup (map fst out) <-> forall a b s, In a l -> In b l -> attr_label (a_name a) s -> attr_label (a_name b) s -> a_name a = a_name b).
Proof.
  intros Hn H. revert Hn. induction H as [|c x l out (Hc & Hv) H IH]; intros Hn; [split; [easy|constructor]|].
  inversion Hn as [|? ? Hx Hn']; subst. specialize (IH Hn'). pose proof (in_written W D l out H) as Hw. cbn [map]. split.
  - intros Hd a b s Ha Hb La Lb. inversion Hd as [|? ? Hx1 Hd']; subst.
    assert (Hno : forall b, In b l -> attr_label (a_name c) s -> attr_label (a_name b) s -> False).
    { intros b' Hb' L1 L2. apply Hx1. rewrite (label_fun _ _ _ Hc L1). apply Hw. now exists b'. }
    destruct Ha as [<-|Ha], Hb as [<-|Hb]; auto.
    + exfalso. now apply (Hno b).
    + exfalso. now apply (Hno a).
    + apply (proj1 IH Hd' a b s); auto.
  - intros Hd. constructor.
    + intros Hi. apply Hw in Hi. destruct Hi as (b & Hb & Lb). apply Hx. rewrite (Hd c b (fst x) (or_introl eq_refl) (or_intror Hb) Hc Lb). now apply in_map.
    + apply IH. intros a b s Ha Hb. apply Hd; now right.
Qed.
Lemma NoDup_app_iff {A} (l1 l2 : list A) : NoDup (l1 ++ l2) <-> NoDup l1 /\ NoDup l2 /\ forall x, In x l1 -> ~ In x l2.
Proof.
  split; [|intros (H1 & H2 & H3); now apply NoDup_app_intro]. induction l1 as [|a l1 IH]; cbn; intros H.
  - repeat split; [constructor|easy|easy].
  - inversion H as [|? ? Hx H']; subst. destruct (IH H') as (I1 & I2 & I3). rewrite in_app_iff in Hx. repeat split; [constructor; tauto|easy|].
    intros x [<-|Hi]; [tauto|now apply I3].
Qed.
Theorem tag_unique_exact W D F n out : NoDup (map a_name (attributes D n)) -> start_tag W D F n out ->
  (NoDup (map fst out) <-> ~ tag_clash D F n).
Proof.
  intros Hu (ns & svg & so & co & -> & Hns & Hp & _ & H1 & H2).
  set (idp := if str_eqb (id_of D n) [] then [] else [(lit "id", id_of D n)]).
  set (l := svg ++ filter (fun a => negb (is_svg_attr a)) (attributes D n)).
  assert (Hw : Forall2 (written W D) l (so ++ co)) by (now apply Forall2_app).
  assert (Hl : forall a, In a l <-> is_written D n a).
  { intros a. unfold l, is_written. rewrite in_app_iff, filter_In. split.
    - intros [Ha|(Ha & Hb)].
      + apply (Permutation_in _ Hp) in Ha. apply filter_In in Ha. destruct Ha as (Ha & Hb). apply andb_true_iff in Hb. split; [easy|]. now apply negb_true_iff.
      + split; [easy|]. unfold is_svg_attr, bad_unicode in *. destruct (a_name a); [discriminate|reflexivity].
    - intros (Ha & Hb). destruct (is_svg_attr a) eqn:E; [left|now right]. apply (Permutation_in _ (Permutation_sym Hp)). apply filter_In. split; [easy|]. now rewrite E, Hb. }
  assert (Hnl : NoDup (map a_name l)).
  { unfold l. rewrite map_app. apply NoDup_app_intro.
    - apply (Permutation_NoDup (l := map a_name (filter (fun a => is_svg_attr a && negb (bad_unicode a)) (attributes D n)))).
      + apply Permutation_map. now apply Permutation_sym.
      + now apply NoDup_filter_names.
    - now apply NoDup_filter_names.
    - intros x Hx Hy. apply in_map_iff in Hx, Hy. destruct Hx as (a & <- & Ha). destruct Hy as (b & Eb & Hb).
      apply (Permutation_in _ Hp) in Ha. apply filter_In in Ha, Hb. destruct Ha as (_ & Ha). destruct Hb as (_ & Hb).
      apply andb_true_iff in Ha. destruct Ha as (Ha & _). unfold is_svg_attr in *. rewrite Eb in Hb. destruct (a_name a); discriminate. }
  assert (Hn : forall s, In s (map fst ns) <-> s = lit "xmlns" /\ top_svg D F n \/ s = lit "xmlns:xlink" /\ top_svg D F n /\ needs_xlink D F n).
  { intros s. destruct Hns as [N|T N|T N]; cbn; split.
    - easy.
    - intros [(_ & H)|(_ & H & _)]; easy.
    - intros [<-|[]]. now left.
    - intros [(-> & _)|(_ & _ & H)]; [now left|easy].
    - intros [<-|[<-|[]]]; [now left|now right].
    - intros [(-> & _)|(-> & _)]; [now left|right; now left]. }
  assert (Hi : forall s, In s (map fst idp) <-> s = lit "id" /\ id_of D n <> []).
  { intros s. unfold idp. destruct (str_eqb (id_of D n) []) eqn:E; cbn; split.
    - easy.
    - intros (_ & H). apply str_eqb_eq in E. congruence.
    - intros [<-|[]]. split; [easy|]. intros E'. apply str_eqb_eq in E'. congruence.
    - intros (-> & _). now left. }
  assert (Nn : NoDup (map fst ns)).
  { destruct Hns; cbn; repeat constructor; cbn; try easy. intros [E|[]]; discriminate E. }
  assert (Ni : NoDup (map fst idp)) by (unfold idp; destruct (str_eqb _ _); cbn; repeat constructor; easy).
  assert (Nd : forall s, In s (map fst ns) -> ~ In s (map fst idp)).
  { intros s Hs Hs'. apply Hn in Hs. apply Hi in Hs'. destruct Hs' as (-> & _). destruct Hs as [(E & _)|(E & _)]; discriminate E. }
  rewrite !map_app, <- !map_app, map_app, map_app, NoDup_app_iff, NoDup_app_iff, (written_nodup_iff W D l _ Hnl Hw).
  pose proof (in_written W D l _ Hw) as Hin. unfold tag_clash. split.
  - intros (_ & (_ & Ha & Hb) & Hc). intros [(a & b & s & Wa & Wb & Hne & La & Lb)|(a & Wa & Hcase)].
    + apply Hne. apply (Ha a b s); auto; now apply Hl.
    + assert (Hs : forall s, attr_label (a_name a) s -> In s (map fst (so ++ co))) by (intros s Ls; apply Hin; exists a; split; [now apply Hl|easy]).
      destruct Hcase as [(La & Hid)|[(La & Ht)|(La & Ht & Hx)]].
      * apply (Hb (lit "id")); [apply Hi; now split|now apply Hs].
      * apply (Hc (lit "xmlns")); [apply Hn; now left|]. apply in_or_app. right. now apply Hs.
      * apply (Hc (lit "xmlns:xlink")); [apply Hn; now right|]. apply in_or_app. right. now apply Hs.
  - intros Hno. split; [exact Nn|]. split; [split; [exact Ni|split]|].
    + intros a b s Wa Wb La Lb. destruct (aname_eqb_spec (a_name a) (a_name b)) as [E|E]; [exact E|]. exfalso. apply Hno. left.
      exists a, b, s. rewrite <- !Hl. tauto.
    + intros s Hs Hs'. apply Hi in Hs. apply Hin in Hs'. destruct Hs as (-> & Hid). destruct Hs' as (a & Wa & La). apply Hno. right. exists a.
      split; [now apply Hl|]. now left.
    + intros s Hs Hs'. apply in_app_or in Hs'. destruct Hs' as [Hs'|Hs']; [now apply (Nd s)|]. apply Hin in Hs'. destruct Hs' as (a & Wa & La).
      apply Hno. right. exists a. split; [now apply Hl|]. apply Hn in Hs. destruct Hs as [(-> & Ht)|(-> & Ht & Hx)]; [right; left|right; right]; auto.
Qed.

Theorem writer_unique_exact W D F n out : reachable D -> shows (lk D) F -> start_tag W D F n out ->
  (NoDup (map fst out) <-> ~ tag_clash D F n).
Proof.
  intros H S. apply tag_unique_exact. apply (li_uniq D (iv_link D F (shows_inv D F H S))).
Qed.

(* ---- character references *)
Definition value16 (ds : list N) (v : N) : N := fold_left (fun a d => (16 * a + d)%N) ds v.

Lemma hex_loop_digits f : forall x acc, (x < 2 ^ N.of_nat f)%N ->
  exists ds, hex_loop f x acc = map hex_digit ds ++ acc /\ Forall (fun d => (d < 16)%N) ds /\ ds <> [] /\ value16 ds 0 = x.
Proof.
  assert (Hone : forall x acc, (x < 16)%N -> exists ds, hex_digit (x mod 16) :: acc = map hex_digit ds ++ acc /\
    Forall (fun d => (d < 16)%N) ds /\ ds <> [] /\ value16 ds 0 = x).
  { intros x acc H. exists [x]. rewrite N.mod_small by lia. split; [easy|]. split; [now repeat constructor|]. split; [easy|].
    unfold value16. cbn [fold_left]. lia. }
  induction f as [|f IH]; intros x acc H.
  - cbn [hex_loop]. apply Hone. change (2 ^ N.of_nat 0)%N with 1%N in H. lia.
  - cbn [hex_loop]. destruct (N.eqb_spec (x / 16) 0) as [E|E].
    + apply Hone. apply N.div_small_iff in E; lia.
    + destruct (IH (x / 16)%N (hex_digit (x mod 16) :: acc)) as (ds & H1 & H2 & H3 & H4).
      * rewrite Nat2N.inj_succ, N.pow_succ_r' in H. apply N.div_lt_upper_bound; lia.
      * exists (ds ++ [x mod 16])%N. rewrite H1, map_app, <- app_assoc. split; [easy|]. split.
        { apply Forall_app. split; [easy|]. repeat constructor. apply N.mod_lt. lia. }
        split; [intros Hx; now apply app_eq_nil in Hx|].
        unfold value16 in *. rewrite fold_left_app. cbn [fold_left]. rewrite H4. symmetry. apply N.div_mod. lia.
Qed.

Lemma size_bound x : (x < 2 ^ N.of_nat (N.size_nat x))%N.
Proof.
  destruct x as [|p]; [reflexivity|]. cbn [N.size_nat].
  induction p as [p IH|p IH|]; [| |reflexivity]; cbn [Pos.size_nat];
    rewrite Nat2N.inj_succ, N.pow_succ_r'; lia.
Qed.

Lemma hex_val_digit d : (d < 16)%N -> hex_val (hex_digit d) = Some d.
Proof.
  intros H. unfold hex_val, hex_digit. destruct (N.ltb_spec d 10) as [E|E].
  - replace (48 <=? 48 + d)%N with true by (symmetry; apply N.leb_le; lia).
    replace (48 + d <=? 57)%N with true by (symmetry; apply N.leb_le; lia). cbn [andb]. f_equal. lia.
  - replace (48 <=? 87 + d)%N with true by (symmetry; apply N.leb_le; lia).
    replace (87 + d <=? 57)%N with false by (symmetry; apply N.leb_gt; lia).
    replace (97 <=? 87 + d)%N with true by (symmetry; apply N.leb_le; lia).
    replace (87 + d <=? 102)%N with true by (symmetry; apply N.leb_le; lia). cbn [andb]. f_equal. lia.
Qed.

Lemma decode_digits ds rest : Forall (fun d => (d < 16)%N) ds -> forall v,
  decode (DHex (Some v)) (map hex_digit ds ++ rest) = decode (DHex (Some (value16 ds v))) rest.
Proof.
  induction 1 as [|d ds Hd H IH]; intros v; [easy|]. cbn [map app decode]. rewrite (hex_val_digit d Hd).
  rewrite IH. reflexivity.
Qed.

Lemma decode_ref c rest : decode DPlain ((lit "&#x" ++ hex c ++ lit ";") ++ rest) = option_map (cons c) (decode DPlain rest).
Proof.
  destruct (hex_loop_digits (N.size_nat c) c [] (size_bound c)) as (ds & E & Hd & Hne & Hv).
  unfold hex. rewrite E, app_nil_r. rewrite <- !app_assoc.
  change (lit "&#x" ++ map hex_digit ds ++ lit ";" ++ rest) with (38 :: 35 :: 120 :: map hex_digit ds ++ 59 :: rest)%N.
  cbn [decode N.eqb Pos.eqb]. destruct ds as [|d ds]; [easy|]. inversion Hd as [|? ? Hd1 Hd2]; subst.
  cbn [map app decode]. rewrite (hex_val_digit d Hd1). rewrite (decode_digits ds _ Hd2). cbn [decode].
  change (hex_val 59%N) with (@None N). cbn [N.eqb Pos.eqb]. reflexivity.
Qed.

Lemma decode_refs s rest : decode DPlain (flat_map (fun c => lit "&#x" ++ hex c ++ lit ";") s ++ rest) =
  option_map (app s) (decode DPlain rest).
Proof.
  induction s as [|c s IH]; [cbn [flat_map app]; now destruct (decode DPlain rest)|].
  cbn [flat_map]. rewrite <- app_assoc, decode_ref, IH. now destruct (decode DPlain rest).
Qed.

Theorem unicode_survives s : (forall t, s <> lit "&#" ++ t) -> decode DPlain (write_escaped s) = Some s.
Proof.
  intros H. unfold write_escaped.
  replace (starts_with (lit "&#") s) with false.
  - rewrite <- (app_nil_r (flat_map _ s)), decode_refs. cbn. now rewrite app_nil_r.
  - symmetry. destruct (starts_with (lit "&#") s) eqn:E; [|easy]. exfalso.
    change (lit "&#") with [38; 35]%N in *. destruct s as [|a [|b s]]; cbn [starts_with] in E.
    + discriminate E.
    + now rewrite andb_false_r in E.
    + apply andb_true_iff in E. destruct E as (E1 & E2). apply andb_true_iff in E2. destruct E2 as (E2 & _).
      apply N.eqb_eq in E1, E2. subst a b. now apply (H s).
Qed.

Lemma decode_length s : forall st v, decode st s = Some v -> (List.length v <= List.length s)%nat.
Proof.
  induction s as [|c s IH]; intros st v H; cbn in H.
  { destruct st; try discriminate. injection H as <-. apply le_n. }
  assert (Hc : forall x, option_map (cons x) (decode DPlain s) = Some v -> (List.length v <= List.length (c :: s))%nat).
  { intros x E. destruct (decode DPlain s) as [w|] eqn:Ew; [|discriminate]. injection E as <-. apply IH in Ew. cbn. now apply le_n_S. }
  assert (Hs : forall st', decode st' s = Some v -> (List.length v <= List.length (c :: s))%nat).
  { intros st' E. apply IH in E. cbn. now apply le_S. }
  destruct st; repeat (match type of H with (if ?b then _ else _) = _ => destruct b | match ?x with Some _ => _ | None => _ end = _ => destruct x end);
    try discriminate; eauto.
Qed.
Theorem unicode_exact s : decode DPlain (write_escaped s) = Some s <-> forall t, s <> lit "&#" ++ t.
Proof.
  split; [|apply unicode_survives]. intros H t ->. change (lit "&#") with [38; 35]%N in *. unfold write_escaped in H.
  change (starts_with (lit "&#") ([38; 35]%N ++ t)) with true in H. cbn in H. apply decode_length in H. cbn in H.
  exact (Nat.nle_succ_diag_l _ (Nat.le_trans _ _ _ (le_S _ _ (le_n _)) H)).
Qed.

(* ---- id references *)
Lemma take_until_all stop s rest : Forall (fun c => stop c = false) s ->
  (forall c t, rest = c :: t -> stop c = true) -> take_until stop (s ++ rest) = (s, rest).
Proof.
  induction 1 as [|c s Hc H IH]; intros Hr.
  - cbn [app]. destruct rest as [|c t]; [easy|]. cbn. now rewrite (Hr c t eq_refl).
  - cbn. now rewrite Hc, (IH Hr).
Qed.

Theorem link_text W D n : plain_id (id_of D n) ->
  read_ref (write_value W D (VLink n)) = Some (id_of D n, []) /\
  read_ref (write_value W D (VFuncLink n)) = Some (id_of D n, []) /\
  (forall f, read_ref (write_value W D (VPaint n f)) =
     Some (id_of D n, match f with
                      | None => []
                      | Some FNone => lit " none"
                      | Some FCurrentColor => lit " currentColor"
                      | Some (FColor c) => lit " " ++ w_color W c
                      end)).
Proof.
  intros H. split; [|split].
  - cbn [write_value]. change (lit "#" ++ id_of D n) with (35%N :: id_of D n). cbn [read_ref].
    rewrite <- (app_nil_r (id_of D n)) at 1. rewrite take_until_all; [now rewrite ?app_nil_r|easy|easy].
  - cbn [write_value]. change (lit "url(#" ++ id_of D n ++ lit ")") with (117 :: 114 :: 108 :: 40 :: 35 :: id_of D n ++ [41])%N.
    cbn [read_ref]. rewrite take_until_all; [easy|easy|]. intros c t [= <- <-]. reflexivity.
  - intros f. cbn [write_value]. set (r := match f with Some f => lit " " ++ write_fallback W f | None => [] end).
    change (lit "url(#" ++ id_of D n ++ lit ")" ++ r) with (117 :: 114 :: 108 :: 40 :: 35 :: id_of D n ++ 41 :: r)%N.
    cbn [read_ref]. rewrite take_until_all; [|easy|intros c t [= <- <-]; reflexivity]. cbn [fst snd].
    unfold r. destruct f as [[| |c]|]; reflexivity.
Qed.

(* Every stored attribute is in the start tag. *)
Lemma Forall2_in_l {A B} (R : A -> B -> Prop) l l' a : Forall2 R l l' -> In a l -> exists b, In b l' /\ R a b.
Proof.
  induction 1 as [|x y l l' H _ IH]; intros Ha; [easy|]. destruct Ha as [->|Ha]; [exists y; split; [now left|easy]|].
  destruct (IH Ha) as (b & Hb & Hr). exists b. split; [now right|easy].
Qed.
Lemma tag_has W D F n out a : start_tag W D F n out -> In a (attributes D n) -> bad_unicode a = false ->
  exists x, In x out /\ written W D a x.
Proof.
  intros (ns & svg & so & co & -> & _ & Hp & _ & H1 & H2) Ha Hb. destruct (is_svg_attr a) eqn:Es.
  - destruct (Forall2_in_l _ _ _ a H1) as (x & Hx & Hw).
    { apply (Permutation_in _ (Permutation_sym Hp)). apply filter_In. split; [easy|]. now rewrite Es, Hb. }
    exists x. split; [|easy]. apply in_or_app. right. apply in_or_app. right. apply in_or_app. now left.
  - destruct (Forall2_in_l _ _ _ a H2) as (x & Hx & Hw).
    { apply filter_In. split; [easy|]. now rewrite Es. }
    exists x. split; [|easy]. apply in_or_app. right. apply in_or_app. right. apply in_or_app. now right.
Qed.

Theorem writer_links W D F ts : reachable D -> shows (lk D) F -> inner D F ->
  tree_at F (T (droot D) ts) ->
  exists evs items, write_dom W D = Ok evs /\ read_back evs = Some items /\
    (forall n a t, anc_or_self F (droot D) n -> is_element D n = true -> In a (attributes D n) ->
       a_name a <> QId A_Unicode -> link_target (a_value a) = Some t -> plain_id (id_of D t) ->
       exists b1 name attrs kids b2 s v rest, occurs (XElement b1 name attrs kids b2) items /\ start_tag W D F n attrs /\
         In (s, v) attrs /\ attr_label (a_name a) s /\ read_ref v = Some (id_of D t, rest)).
Proof.
  intros H S Hin Ht. destruct (writer_tags W D F ts H S Hin Ht) as (evs & items & H1 & H2 & H3 & _).
  exists evs, items. split; [exact H1|]. split; [exact H2|]. intros n a t Hn He Ha Hname Hl Hid.
  destruct (H3 n Hn He) as (b1 & name & attrs & kids & b2 & Ho & _ & Hs).
  assert (Hb : bad_unicode a = false).
  { destruct (bad_unicode a) eqn:E; [|easy]. apply bad_unicode_iff in E. tauto. }
  destruct (tag_has W D F n attrs a Hs Ha Hb) as ((s & v) & Hx & (Hlab & Hv)). cbn [fst snd] in Hlab, Hv.
  assert (Ev : v = write_value W D (a_value a)).
  { rewrite Hv, <- value_str_eq. destruct (a_value a); try discriminate Hl; destruct (a_name a) as [y|y]; try reflexivity; now destruct y. }
  destruct (link_text W D t Hid) as (L1 & L2 & L3).
  assert (Hr : exists rest, read_ref v = Some (id_of D t, rest)).
  { rewrite Ev. destruct (a_value a) as [| | | | |m|m f| | | |m| | | | | | |]; try discriminate Hl; injection Hl as ->.
    - eexists. exact L2.
    - eexists. exact (L3 f).
    - eexists. exact L1. }
  destruct Hr as (rest & Hr). exists b1, name, attrs, kids, b2, s, v, rest. tauto.
Qed.

(* Writing a string value writes the string. *)
Theorem writer_unicode W D F ts : reachable D -> shows (lk D) F -> inner D F ->
  tree_at F (T (droot D) ts) ->
  exists evs items, write_dom W D = Ok evs /\ read_back evs = Some items /\
    (forall n s, anc_or_self F (droot D) n -> is_element D n = true ->
       In (mkAttr (QId A_Unicode) (VString s)) (attributes D n) -> (forall t, s <> lit "&#" ++ t) ->
       exists b1 name attrs kids b2 v, occurs (XElement b1 name attrs kids b2) items /\ start_tag W D F n attrs /\
         In (lit "unicode", v) attrs /\ decode DPlain v = Some s).
Proof.
  intros H S Hin Ht. destruct (writer_tags W D F ts H S Hin Ht) as (evs & items & H1 & H2 & H3 & _).
  exists evs, items. split; [exact H1|]. split; [exact H2|]. intros n s Hn He Ha Hs.
  destruct (H3 n Hn He) as (b1 & name & attrs & kids & b2 & Ho & _ & Hst).
  destruct (tag_has W D F n attrs _ Hst Ha eq_refl) as ((k & v) & Hx & (Hlab & Hv)). cbn [fst snd a_name a_value] in Hlab, Hv.
  exists b1, name, attrs, kids, b2, v. split; [exact Ho|]. split; [exact Hst|].
  assert (Ek : k = lit "unicode").
  { inversion Hlab as [| |x t N1 N2 Hk|]; subst.
    assert (Hu : attribute_as_str A_Unicode = Ok (lit "unicode")) by (vm_compute; reflexivity).
    pose proof (eq_trans (eq_sym Hk) Hu) as E. now injection E. }
  rewrite <- Ek. split; [exact Hx|]. rewrite Hv. now apply unicode_survives.
Qed.
