(* Parsing the written output: the built document matches the written one, place by place. *)
From Coq Require Import String List Bool PeanoNat NArith Permutation Sorted Lia.
From Verif Require Import Base Ids Names NamesProofs Links Tree Iter ForestSpec TreeSpec ListFacts TreeProofs ForestFacts
  IterSpec IterProofs Data Attrs AttrFacts AttrSpec Slab NodeApi Doc History LinkProofs InvProofs HistoryProofs TreeApi ApiProofs
  Text TextSpec Writer WriterSpec WriterProofs WriterApi Parser ParserSpec ParserTree ParserLinks ParserApi RoundSpec RoundRead.
Import ListNotations.
Open Scope nat_scope.
Open Scope list_scope.

(* ---- the file *)
Lemma top_split D t : (exists l1 s l2, t_kids t = l1 ++ s :: l2 /\ is_element D (t_node s) = true /\
    tag_name D (t_node s) = QId E_Svg /\ forall c, In c (l1 ++ l2) -> node_type D (t_node c) = NComment) ->
  exists s, In s (t_kids t) /\ is_element D (t_node s) = true /\ tag_name D (t_node s) = QId E_Svg /\
    forall c, In c (t_kids t) -> c = s \/ node_type D (t_node c) = NComment.
Proof.
  intros (l1 & s & l2 & -> & H1 & H2 & H3). exists s. split; [apply in_or_app; right; now left|]. split; [easy|]. split; [easy|].
  intros c Hc. apply in_app_or in Hc. destruct Hc as [Hc|[Hc|Hc]]; [right|now left|right]; apply H3; apply in_or_app; tauto.
Qed.

Lemma file_reads P W D F t items : InvF D F -> tree_at F t -> t_node t = droot D -> parent_of F (droot D) = None ->
  portable P W D F t -> p_sheet P [] = [] -> Forall2 (describes W D F) (t_kids t) items -> Forall (preserved false) items ->
  (exists top, reads_file items top) /\
  forall top, reads_file items top -> Forall2 (sees W D F) (t_kids t) (svg_of P top).
Proof.
  intros I Ht Hr Htop PO Hsheet Hd Hp. pose proof (r_wf _ _ (iv_rep _ _ I)) as Wf.
  destruct (top_split D t (po_top _ _ _ _ _ PO)) as (s & Hs & Hse & Hsvg & Hother).
  assert (Hkid : forall c, In c (t_kids t) -> tree_at F c /\ parent_of F (t_node c) = Some (droot D) /\ In (t_node c) (preorder t)).
  { intros c Hc. pose proof (tree_at_children F t Ht) as Ec. destruct t as [r ts]. cbn [t_node t_kids] in *. subst r.
    inversion Ht as [? ? _ Hall]; subst. rewrite Forall_forall in Hall. split; [now apply Hall|]. split.
    - apply (wf_child F Wf). rewrite Ec. now apply in_map.
    - cbn [preorder]. right. apply in_flat_map. exists c. split; [easy|apply preorder_self]. }
  assert (Hnotext : forall c, In c (t_kids t) -> is_text D (t_node c) = false).
  { intros c Hc. unfold is_text. destruct (Hother c Hc) as [->|E].
    - unfold is_element in Hse. now destruct (node_type D (t_node s)).
    - now rewrite E. }
  destruct (kids_reads P W D F false no_env None (t_kids t) items) as (K1 & K2); try easy.
  { apply Forall_forall. intros c Hc item Hdc Hpc. destruct (Hkid c Hc) as (C1 & C2 & C3).
    apply (tree_reads P W D F t (t_node s) I Ht Htop PO (proj1 (proj2 (Hkid s Hs))) Hsvg c false no_env item C1 C3 Hdc Hpc).
    - intros (a & Ha & Hat) Hnt. exfalso. inversion Ha as [E|? ? q Hq Haq]; subst; [easy|].
      assert (q = droot D) by congruence. subst q. inversion Haq as [E|? ? q Hq' _]; subst; [|congruence].
      destruct (iv_plain D F I (droot D)) as (_ & Et & _); [|congruence].
      unfold is_element. now rewrite (proj2 (iv_root D F I (droot D) (iv_rlt D F I)) eq_refl).
    - intros Hce. destruct (Hother c Hc) as [->|E]; [split; [constructor|now left]|]. unfold is_element in Hce. now rewrite E in Hce. }
  { intros c Hc Hct. now rewrite (Hnotext c Hc) in Hct. }
  { intros l1 a b l2 E Ha _. assert (Hin : In a (map t_node (t_kids t))) by (rewrite E; apply in_or_app; right; now left).
    apply in_map_iff in Hin. destruct Hin as (c & <- & Hc). now rewrite (Hnotext c Hc) in Ha. }
  split.
  - destruct K1 as (ys & Hys). exists (merged ys), ys. now split.
  - intros top (ys & Hys & ->). destruct (K2 ys Hys) as (sns & Hl).
    destruct (laid_parts P W D F false None _ _ sns Hl) as (L1 & L2 & L3). unfold svg_of. rewrite ParserProofs.sheet_texts_eq, L2, Hsheet, L3. exact L1.
Qed.

(* ---- places *)
Lemma combine_app {A B} (l1 l2 : list A) (m1 m2 : list B) : length l1 = length m1 ->
  combine (l1 ++ l2) (m1 ++ m2) = combine l1 m1 ++ combine l2 m2.
Proof.
  revert m1. induction l1 as [|x l1 IH]; intros [|y m1] E; try easy. cbn in *. f_equal. apply IH. congruence.
Qed.

Lemma shape_length t : forall t', same_shape t t' -> length (preorder t) = length (preorder t').
Proof.
  induction t as [n ts IH] using tree_ind'. intros t' H. inversion H as [? n' ? ts' Hk]; subst. cbn. f_equal. clear H.
  revert ts' Hk. induction IH as [|u ts Hu IH IH2]; intros ts' Hk; inversion Hk; subst; [easy|]. cbn. rewrite !app_length.
  f_equal; [now apply Hu|now apply IH2].
Qed.
Lemma shapes_length ts ts' : Forall2 same_shape ts ts' -> length (flat_map preorder ts) = length (flat_map preorder ts').
Proof.
  induction 1 as [|u u' ts ts' Hu H IH]; [easy|]. cbn. rewrite !app_length, IH. f_equal. now apply shape_length.
Qed.

(* The trees [ts] of the written document and the trees [us] of the new one. *)
Definition places (ts us : list tree) : list (nid * nid) := combine (flat_map preorder ts) (flat_map preorder us).

Lemma places_cons u u' ts us : same_shape u u' ->
  places (u :: ts) (u' :: us) = combine (preorder u) (preorder u') ++ places ts us.
Proof. intros H. unfold places. cbn [flat_map]. apply combine_app. now apply shape_length. Qed.
Lemma places_node n ts n' us : combine (preorder (T n ts)) (preorder (T n' us)) = (n, n') :: places ts us.
Proof. reflexivity. Qed.

(* One node of the built document. *)
Record matches (P : values) (W : writers) (D : dom) (F : forest) (D1 : dom) (ls : list link) (n n' : nid) : Prop := {
  ma_type : node_type D1 n' = node_type D n;
  ma_tag  : tag_name D1 n' = tag_name D n;
  ma_id   : id_of D1 n' = id_of D n;
  ma_comment : node_type D n = NComment -> text_of D1 n' = text_of D n;
  ma_text : node_type D n = NText -> exists w1 w2, forallb white w1 = true /\ forallb white w2 = true /\
              (in_text D F n -> w1 = [] /\ w2 = []) /\ text_of D1 n' = w1 ++ text_of D n ++ w2;
  ma_value : forall q v, In (mkAttr q v) (attributes D1 n') <-> exists a x e, q = QId a /\ In x (attributes D n) /\
               a_name x = QId a /\ tag_name D n = QId e /\ meaning P e (a, value_text W D x) = OValue v;
  ma_link : forall a x e iri fb, In x (attributes D n) -> a_name x = QId a -> tag_name D n = QId e ->
              meaning P e (a, value_text W D x) = OLink iri fb -> In (mkLink a iri fb n') ls
}.

Lemma matches_more P W D F D1 ls ls' n n' : (forall d, In d ls -> In d ls') -> matches P W D F D1 ls n n' -> matches P W D F D1 ls' n n'.
Proof.
  intros H [M1 M2 M3 M4 M5 M6 M7]. split; try easy. intros a x e iri fb H1 H2 H3 H4. apply H. now apply (M7 a x e).
Qed.

Lemma decl_in W D svg ds : Forall2 (decl_of W D) svg ds -> NoDup (map a_name svg) ->
  NoDup (map fst ds) /\ forall a s, In (a, s) ds <-> exists x, In x svg /\ a_name x = QId a /\ s = value_text W D x.
Proof.
  intros H. induction H as [|x d svg ds (H1 & H2) H IH]; intros Hn.
  - split; [constructor|]. intros a s. split; [easy|]. intros (x & [] & _).
  - inversion Hn as [|? ? Hx Hn']; subst. destruct (IH Hn') as (IH1 & IH2). split.
    + cbn. constructor; [|easy]. intros Hin. apply in_map_iff in Hin. destruct Hin as ([a s] & Ea & Hd). cbn in Ea.
      apply IH2 in Hd. destruct Hd as (z & Hz & Ez & _). apply Hx. rewrite H1, <- Ea, <- Ez. now apply in_map.
    + intros a s. split.
      * intros [->|Hd]; [exists x; split; [now left|]; now split|]. apply IH2 in Hd. destruct Hd as (z & Hz & Ez).
        exists z. split; [now right|easy].
      * intros (z & [->|Hz] & Ez & ->).
        -- left. destruct d as [a' s']. cbn in *. rewrite Ez in H1. injection H1 as <-. now rewrite H2.
        -- right. apply IH2. now exists z.
Qed.

Lemma plain_value_iff P e a ds v : NoDup (map fst ds) ->
  plain_value P e a ds = Some v <-> exists s, In (a, s) ds /\ meaning P e (a, s) = OValue v.
Proof.
  intros Hn. split; [apply plain_value_from|]. intros (s & Hin & Hm). unfold plain_value.
  replace (plain_values P e a ds) with [v]; [easy|]. unfold plain_values.
  assert (G : forall ds, ~ In a (map fst ds) ->
    flat_map (fun d : aid * str => if aid_eqb (fst d) a then match meaning P e d with OValue v => [v] | _ => [] end else []) ds = []).
  { clear. induction ds as [|[b s] ds IH]; intros Hno; [easy|]. cbn [flat_map fst]. destruct (aid_eqb b a) eqn:E.
    - exfalso. apply Hno. apply aid_eqb_eq in E. subst. now left.
    - cbn [app]. apply IH. intros Hx. apply Hno. now right. }
  induction ds as [|[b s'] ds IH]; [easy|]. inversion Hn as [|? ? Hb Hn']; subst. cbn [flat_map fst].
  destruct Hin as [[= -> ->]|Hin].
  - replace (aid_eqb a a) with true by (symmetry; now apply aid_eqb_eq). rewrite Hm. cbn [app]. now rewrite G.
  - destruct (aid_eqb b a) eqn:E.
    + exfalso. apply aid_eqb_eq in E. subst b. apply Hb. change a with (fst (a, s)). now apply in_map.
    + cbn [app]. now apply IH.
Qed.

Lemma references_in P e n ds d : In d (references P e n ds) <->
  l_node d = n /\ exists s, In (l_attr d, s) ds /\ meaning P e (l_attr d, s) = OLink (l_iri d) (l_fallback d).
Proof.
  unfold references. rewrite in_flat_map. split.
  - intros ([a s] & Hin & Hd). destruct (meaning P e (a, s)) as [| | |iri fb] eqn:E; try easy. destruct Hd as [<-|[]]. cbn.
    split; [easy|]. now exists s.
  - intros (<- & s & Hin & Hm). exists (l_attr d, s). split; [easy|]. rewrite Hm. left. now destruct d.
Qed.

Lemma built_matches P W D F D1 F1 : InvF D F -> InvF D1 F1 -> forall sns us ls, built P D1 sns us ls ->
  forall ts, Forall2 (sees W D F) ts sns ->
  Forall2 same_shape ts us /\ (forall n n', In (n, n') (places ts us) -> matches P W D F D1 ls n n') /\
  (forall d, In d ls -> exists n x e, In (n, l_node d) (places ts us) /\ In x (attributes D n) /\ a_name x = QId (l_attr d) /\
     tag_name D n = QId e /\ meaning P e (l_attr d, value_text W D x) = OLink (l_iri d) (l_fallback d)).
Proof.
  intros I I1 sns us ls H.
  assert (Hnone : forall n n', node_type D n <> NElement -> node_type D1 n' = node_type D n ->
    tag_name D1 n' = tag_name D n /\ id_of D1 n' = id_of D n /\ attributes D n = [] /\ attributes D1 n' = []).
  { intros n n' Hn E. assert (X : is_element D n = false) by (unfold is_element; now destruct (node_type D n)).
    assert (X1 : is_element D1 n' = false) by (unfold is_element in *; now rewrite E).
    destruct (iv_plain D F I n X) as (A1 & A2 & A3). destruct (iv_plain D1 F1 I1 n' X1) as (B1 & B2 & B3). now rewrite A2, A3, B2, B3. }
  induction H as [|e id ds ks l n' us1 us l1 l2 Hty Htag Hid Hat HB1 IH1 HB2 IH2|s l n' us l2 Hty Htx HB IH|s l n' us l2 Hty Htx HB IH];
    intros ts Hs; inversion Hs as [|u sn ts' sns' Hu Hs']; subst.
  - split; [constructor|]. split; easy.
  - inversion Hu as [n ts1 ? ? ? svg Hnt Hnag Hperm Hdecl Hkids| |]; subst.
    destruct (IH1 ts1 Hkids) as (A1 & A2 & A3). destruct (IH2 ts' Hs') as (B1 & B2 & B3).
    assert (Hsh : same_shape (T n ts1) (T n' us1)) by now constructor.
    assert (Hnd : NoDup (map a_name svg)).
    { apply (Permutation_NoDup (l := map a_name (attributes D n))); [apply Permutation_map; now apply Permutation_sym|].
      apply (li_uniq D (iv_link D F I)). }
    destruct (decl_in W D svg ds Hdecl Hnd) as (Hdn & Hdi).
    assert (Hsv : forall x, In x svg <-> In x (attributes D n)).
    { intros x. split; apply Permutation_in; [easy|now apply Permutation_sym]. }
    split; [now constructor|]. rewrite (places_cons _ _ _ _ Hsh), places_node. split.
    + intros m m' [[= <- <-]|Hm].
      * split; try congruence.
        -- intros q v. rewrite Hat. split.
           ++ intros (a & -> & Hv). apply (plain_value_iff P e a ds v Hdn) in Hv. destruct Hv as (s & Hin & Hm).
              apply Hdi in Hin. destruct Hin as (x & Hx & Ex & ->). exists a, x, e. rewrite <- Hsv. now repeat split.
           ++ intros (a & x & e0 & -> & Hx & Ex & Et & Hm). assert (e0 = e) by congruence. subst e0. exists a. split; [easy|].
              apply (plain_value_iff P e a ds v Hdn). exists (value_text W D x). split; [|easy]. apply Hdi. exists x.
              now rewrite Hsv.
        -- intros a x e0 iri fb Hx Ex Et Hm. assert (e0 = e) by congruence. subst e0. apply in_or_app. left.
           apply references_in. cbn. split; [easy|]. exists (value_text W D x). split; [|easy]. apply Hdi. exists x. now rewrite Hsv.
      * apply in_app_or in Hm. destruct Hm as [Hm|Hm].
        -- apply (matches_more P W D F D1 l1); [|now apply A2]. intros d Hd. apply in_or_app. right. apply in_or_app. now left.
        -- apply (matches_more P W D F D1 l2); [|now apply B2]. intros d Hd. apply in_or_app. right. apply in_or_app. now right.
    + intros d Hd. apply in_app_or in Hd. destruct Hd as [Hd|Hd].
      * apply references_in in Hd. destruct Hd as (En & s & Hin & Hm). apply Hdi in Hin. destruct Hin as (x & Hx & Ex & ->).
        exists n, x, e. rewrite En. split; [now left|]. rewrite <- Hsv. now repeat split.
      * apply in_app_or in Hd. destruct Hd as [Hd|Hd].
        -- destruct (A3 d Hd) as (m & x & e0 & Hm & Hr). exists m, x, e0. split; [|exact Hr]. right. apply in_or_app. now left.
        -- destruct (B3 d Hd) as (m & x & e0 & Hm & Hr). exists m, x, e0. split; [|exact Hr]. right. apply in_or_app. now right.
  - inversion Hu as [|n w1 w2 Hnt Hw1 Hw2 Hin|]; subst. destruct (IH ts' Hs') as (B1 & B2 & B3).
    assert (Hsh : same_shape (T n []) (T n' [])) by (constructor; constructor).
    split; [now constructor|]. rewrite (places_cons _ _ _ _ Hsh), places_node. cbn [app places flat_map combine].
    change (combine (flat_map preorder []) (flat_map preorder [])) with (@nil (nid * nid)). cbn [app]. split.
    + intros m m' [[= <- <-]|Hm]; [|now apply B2]. destruct (Hnone n n') as (N1 & N2 & N3 & N4); [congruence|congruence|].
      split; try congruence.
      * intros _. now exists w1, w2.
      * intros q v. rewrite N3, N4. split; [easy|]. intros (a & x & e & _ & [] & _).
      * intros a x e iri fb Hx. now rewrite N3 in Hx.
    + intros d Hd. destruct (B3 d Hd) as (m & x & e & Hm & Hr). exists m, x, e. split; [now right|easy].
  - inversion Hu as [| |n Hnt]; subst. destruct (IH ts' Hs') as (B1 & B2 & B3).
    assert (Hsh : same_shape (T n []) (T n' [])) by (constructor; constructor).
    split; [now constructor|]. rewrite (places_cons _ _ _ _ Hsh), places_node.
    change (places [] []) with (@nil (nid * nid)). cbn [app]. split.
    + intros m m' [[= <- <-]|Hm]; [|now apply B2]. destruct (Hnone n n') as (N1 & N2 & N3 & N4); [congruence|congruence|].
      split; try congruence.
      * intros q v. rewrite N3, N4. split; [easy|]. intros (a & x & e & _ & [] & _).
      * intros a x e iri fb Hx. now rewrite N3 in Hx.
    + intros d Hd. destruct (B3 d Hd) as (m & x & e & Hm & Hr). exists m, x, e. split; [now right|easy].
Qed.
