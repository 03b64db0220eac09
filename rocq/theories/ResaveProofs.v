(* Proofs: documents with the same content are written alike. *)
From Coq Require Import String List Bool PeanoNat NArith Permutation Sorted Lia.
From Verif Require Import Base Ids Names NamesProofs Links Tree Iter ForestSpec TreeSpec ListFacts TreeProofs ForestFacts
  IterSpec IterProofs Data Attrs AttrFacts Slab NodeApi Doc DocSpec History LinkProofs InvProofs HistoryProofs TreeApi ApiProofs
  DocApi Text TextSpec Writer WriterSpec WriterProofs Parser ParserSpec ParserFacts ParserMeaning ParserStatements RoundSpec
  RoundMatch RoundProofs ParserStatements ResaveSpec.
Import ListNotations.
Open Scope nat_scope.
Open Scope list_scope.

(* Sorted lists with the same members are equal. *)
Lemma sorted_equal {A} (key : A -> N) : forall l l',
  StronglySorted (fun a b => (key a < key b)%N) l -> StronglySorted (fun a b => (key a < key b)%N) l' ->
  (forall a, In a l <-> In a l') -> l = l'.
Proof.
  induction l as [|x l IH]; intros l' S S' H.
  - destruct l' as [|y l']; [easy|]. exfalso. apply (proj2 (H y)). now left.
  - destruct l' as [|y l']; [exfalso; apply (proj1 (H x)); now left|].
    inversion S as [|? ? S1 F1]; subst. inversion S' as [|? ? S2 F2]; subst. rewrite Forall_forall in F1, F2.
    assert (x = y) as <-.
    { destruct (proj1 (H x) (or_introl eq_refl)) as [E|Hx]; [easy|]. destruct (proj2 (H y) (or_introl eq_refl)) as [E|Hy]; [easy|].
      specialize (F1 y Hy). specialize (F2 x Hx). cbn in F1, F2. lia. }
    f_equal. apply IH; [easy|easy|]. intros a. split; intros Ha.
    + destruct (proj1 (H a) (or_intror Ha)) as [<-|E]; [|easy]. specialize (F1 x Ha). cbn in F1. lia.
    + destruct (proj2 (H a) (or_intror Ha)) as [<-|E]; [|easy]. specialize (F2 x Ha). cbn in F2. lia.
Qed.

Lemma flat_res_ext {A B} (f g : A -> res (list B)) l : (forall x, In x l -> f x = g x) -> flat_res f l = flat_res g l.
Proof.
  induction l as [|x l IH]; intros H; cbn; [easy|]. rewrite (H x (or_introl eq_refl)), IH; [easy|]. intros y Hy. apply H. now right.
Qed.

Section Same.
  Context (W : writers) (D D' : dom) (F F' : forest) (t t' : tree).
  Context (I : InvF D F) (I' : InvF D' F').
  Context (SN : forall n n', same_place t t' n n' -> same_node t t' D D' n n').
  Context (SO : same_order t t' D D').

  Lemma same_written v v' : same_value t t' v v' -> write_value W D' v' = write_value W D v.
  Proof.
    intros H. inversion H as [v0 E|x x' P|x x' P|x x' fb P]; subst.
    - destruct v'; try reflexivity; discriminate E.
    - cbn. now rewrite (sd_id _ _ _ _ _ _ (SN x x' P)).
    - cbn. now rewrite (sd_id _ _ _ _ _ _ (SN x x' P)).
    - cbn. now rewrite (sd_id _ _ _ _ _ _ (SN x x' P)).
  Qed.

  Lemma same_get n n' q : same_place t t' n n' ->
    match attrs_get (attributes D n) q, attrs_get (attributes D' n') q with
    | Some a, Some a' => a_name a = q /\ a_name a' = q /\ same_value t t' (a_value a) (a_value a')
    | None, None => True
    | _, _ => False
    end.
  Proof.
    intros P. pose proof (SN n n' P) as S.
    assert (U : NoDup (map a_name (attributes D n))) by apply (li_uniq D (iv_link D F I)).
    assert (U' : NoDup (map a_name (attributes D' n'))) by apply (li_uniq D' (iv_link D' F' I')).
    assert (G : forall l, NoDup (map a_name l) -> match attrs_get l q with Some a => In a l /\ a_name a = q | None => ~ In q (map a_name l) end).
    { clear. induction l as [|b l IH]; cbn; intros Hn; [easy|]. inversion Hn; subst.
      destruct (aname_eqb_spec (a_name b) q) as [E|E]; [split; [now left|easy]|].
      specialize (IH H2). destruct (attrs_get l q); [split; [right|]; apply IH|]. intros [H|H]; [easy|now apply IH]. }
    pose proof (G _ U) as Ga. pose proof (G _ U') as Gb.
    destruct (attrs_get (attributes D n) q) as [[qa va]|] eqn:Ea; destruct (attrs_get (attributes D' n') q) as [[qb vb]|] eqn:Eb; try easy.
    - destruct Ga as (Ga & Na), Gb as (Gb & Nb). cbn in Na, Nb. subst qa qb. split; [easy|]. split; [easy|]. cbn.
      destruct (sd_attr _ _ _ _ _ _ S q va Ga) as (v' & Hv' & Hs).
      assert (v' = vb) as <-; [|exact Hs].
      pose proof (unique_attr (attributes D' n') (mkAttr q v') (mkAttr q vb) U' Hv' Gb eq_refl) as E. now injection E.
    - destruct Ga as (Ga & Na). cbn in Na. subst qa. destruct (sd_attr _ _ _ _ _ _ S q va Ga) as (v' & Hv' & _).
      apply Gb. now apply (in_map a_name) in Hv'.
    - destruct Gb as (Gb & Nb). cbn in Nb. subst qb. destruct (sd_back _ _ _ _ _ _ S q vb Gb) as (v & Hv & _).
      apply Ga. now apply (in_map a_name) in Hv.
  Qed.

  Lemma same_has n n' q : same_place t t' n n' -> has_attribute D' n' q = has_attribute D n q.
  Proof.
    intros P. pose proof (SN n n' P) as S. apply eq_true_iff_eq. unfold has_attribute. rewrite !contains_iff, !in_map_iff. split.
    - intros ([q0 v] & E & H). cbn in E. subst q0. destruct (sd_back _ _ _ _ _ _ S q v H) as (v' & H' & _). now exists (mkAttr q v').
    - intros ([q0 v] & E & H). cbn in E. subst q0. destruct (sd_attr _ _ _ _ _ _ S q v H) as (v' & H' & _). now exists (mkAttr q v').
  Qed.

  (* The sorted ids. *)
  Definition ids_of (l : list attr) : list (aid * aname) :=
    sort_by (fun x => aid_idx (fst x)) (map (fun x => (fst x, a_name (snd x))) (attrs_svg l)).
  Lemma ids_in l x : In x (ids_of l) <-> exists a, In a l /\ a_name a = QId (fst x) /\ snd x = QId (fst x).
  Proof.
    clear. unfold ids_of. split.
    - intros H. apply (Permutation_in _ (sort_by_perm _ _)) in H. rewrite attrs_svg_map, map_map in H. apply in_map_iff in H.
      destruct H as (a & <- & H). apply filter_In in H. destruct H as (H & Hs). exists a. split; [easy|].
      unfold is_svg_attr, with_id in *. destruct (a_name a) eqn:E; [|easy]. cbn. now rewrite E.
    - intros (a & H & E & E2). apply (Permutation_in _ (Permutation_sym (sort_by_perm _ _))). rewrite attrs_svg_map, map_map.
      apply in_map_iff. exists a. split.
      + unfold with_id. rewrite E. cbn. rewrite E. destruct x as [u v]. cbn in *. now subst v.
      + apply filter_In. split; [easy|]. unfold is_svg_attr. now rewrite E.
  Qed.
  Lemma ids_sorted l : NoDup (map a_name l) -> StronglySorted (fun a b => (aid_idx (fst a) < aid_idx (fst b))%N) (ids_of l).
  Proof.
    clear. intros Hn. apply (sorted_strict (fun a b => (aid_idx (fst a) <= aid_idx (fst b))%N)); [| |apply sort_by_sorted].
    - apply (Permutation_NoDup (Permutation_sym (sort_by_perm _ _))). rewrite attrs_svg_map, map_map.
      induction l as [|a l IH]; cbn; [constructor|]. inversion Hn; subst. specialize (IH H2). unfold is_svg_attr at 1.
      destruct (a_name a) as [x|] eqn:E; [|exact IH]. cbn. constructor; [|exact IH]. unfold with_id at 1. rewrite E. cbn.
      replace (a_name (snd (with_id a))) with (QId x : aname) by (unfold with_id; now rewrite E).
      intros H. apply in_map_iff in H. destruct H as (b & Hb & H). apply filter_In in H. destruct H as (H & Hs).
      unfold is_svg_attr, with_id in *. destruct (a_name b) as [y|] eqn:Eb; [|easy]. cbn in Hb. rewrite Eb in Hb. injection Hb as -> _.
      apply H1. rewrite <- Eb. now apply in_map.
    - intros a b Ha Hb Hne Hle. apply ids_in in Ha, Hb. destruct a as [a qa], b as [b qb]. cbn [fst snd] in *.
      destruct Ha as (_ & _ & _ & ->), Hb as (_ & _ & _ & ->). assert (aid_idx a <> aid_idx b); [|lia]. intros E. apply Hne.
      assert (a = b) as ->; [|easy]. apply aid_eqb_eq. unfold aid_eqb. now apply N.eqb_eq.
  Qed.

  Lemma same_ids n n' : same_place t t' n n' -> ids_of (attributes D' n') = ids_of (attributes D n).
  Proof.
    intros P. pose proof (SN n n' P) as S. apply (sorted_equal (fun x => aid_idx (fst x))).
    - apply ids_sorted. apply (li_uniq D' (iv_link D' F' I')).
    - apply ids_sorted. apply (li_uniq D (iv_link D F I)).
    - intros x. rewrite !ids_in. split.
      + intros ([q v] & H & E & E2). cbn in E. subst q. destruct (sd_back _ _ _ _ _ _ S _ v H) as (v' & H' & _). now exists (mkAttr (QId (fst x)) v').
      + intros ([q v] & H & E & E2). cbn in E. subst q. destruct (sd_attr _ _ _ _ _ _ S _ v H) as (v' & H' & _). now exists (mkAttr (QId (fst x)) v').
  Qed.

  Lemma same_svg n n' : same_place t t' n n' ->
    flat_res (write_svg_attr W D' (attributes D' n')) (ids_of (attributes D' n')) =
    flat_res (write_svg_attr W D (attributes D n)) (ids_of (attributes D n)).
  Proof.
    intros P. rewrite (same_ids n n' P). apply flat_res_ext. intros x _. unfold write_svg_attr.
    pose proof (same_get n n' (snd x) P) as G.
    destruct (attrs_get (attributes D n) (snd x)) as [a|], (attrs_get (attributes D' n') (snd x)) as [a'|]; try easy.
    destruct G as (_ & _ & G). cbn [unwrap bind]. destruct (attr_id_str (fst x)); [|easy|easy]. cbn [bind].
    destruct (aid_eqb (fst x) A_Unicode).
    - inversion G as [v E|y y' Q E1 E2|y y' Q E1 E2|y y' fb Q E1 E2]; reflexivity.
    - now rewrite (same_written _ _ G).
  Qed.

  Lemma custom_map (l : list attr) E : NoDup (map a_name l) ->
    flat_map (write_custom_attr W E) l =
    flat_map (fun q => match attrs_get l q with Some a => write_custom_attr W E a | None => [] end)
      (map a_name (filter (fun a => negb (is_svg_attr a)) l)).
  Proof.
    clear. intros Hn. assert (G : forall m, (forall a, In a m -> In a l) ->
      flat_map (write_custom_attr W E) m =
      flat_map (fun q => match attrs_get l q with Some a => write_custom_attr W E a | None => [] end)
        (map a_name (filter (fun a => negb (is_svg_attr a)) m))); [|now apply G].
    induction m as [|a m IH]; intros H; [easy|]. cbn [flat_map filter]. rewrite IH; [|intros b Hb; apply H; now right].
    destruct (is_svg_attr a) eqn:Es; cbn [negb].
    - unfold write_custom_attr at 1. unfold is_svg_attr in Es. now destruct (a_name a).
    - cbn [map flat_map]. rewrite (attrs_get_in l a Hn (H a (or_introl eq_refl))). reflexivity.
  Qed.
  Lemma same_custom n n' : same_place t t' n n' ->
    flat_map (write_custom_attr W D') (attributes D' n') = flat_map (write_custom_attr W D) (attributes D n).
  Proof.
    intros P. rewrite (custom_map (attributes D' n') D'), (custom_map (attributes D n) D);
      [|apply (li_uniq D (iv_link D F I))|apply (li_uniq D' (iv_link D' F' I'))].
    pose proof (SO n n' P) as E. unfold custom_names in E. rewrite E. apply flat_map_ext. intros q.
    pose proof (same_get n n' q P) as G.
    destruct (attrs_get (attributes D n) q) as [a|], (attrs_get (attributes D' n') q) as [a'|]; try easy.
    destruct G as (Ga & Gb & G). unfold write_custom_attr. rewrite Ga, Gb. destruct q; [easy|]. now rewrite (same_written _ _ G).
  Qed.

  Lemma same_tag n n' q : same_place t t' n n' -> has_tag_name D' n' q = has_tag_name D n q.
  Proof. intros P. unfold has_tag_name. now rewrite (sd_tag _ _ _ _ _ _ (SN n n' P)). Qed.

  (* A subtree and the one at its place. *)
  Definition twins (u u' : tree) : Prop :=
    tree_at F u /\ tree_at F' u' /\ same_shape u u' /\ t_node u < fresh D /\ t_node u' < fresh D' /\
    forall n n', same_place u u' n n' -> same_place t t' n n'.

  Lemma place_there u u' n : same_shape u u' -> In n (preorder u) -> exists n', same_place u u' n n'.
  Proof.
    clear. intros H. apply shape_length in H. unfold same_place. revert H. generalize (preorder u), (preorder u').
    induction l as [|a l IH]; intros [|b m] E Hin; try easy. destruct Hin as [->|Hin]; [exists b; now left|].
    destruct (IH m) as (x & Hx); [cbn in E; congruence|easy|]. exists x. now right.
  Qed.
  Lemma place_back u u' n' : same_shape u u' -> In n' (preorder u') -> exists n, same_place u u' n n'.
  Proof.
    clear. intros H. apply shape_length in H. unfold same_place. revert H. generalize (preorder u), (preorder u').
    induction l as [|a l IH]; intros [|b m] E Hin; try easy. destruct Hin as [->|Hin]; [exists a; now left|].
    destruct (IH m) as (x & Hx); [cbn in E; congruence|easy|]. exists x. now right.
  Qed.

  Lemma same_any u u' q : twins u u' ->
    any_descendant (2 * enough D') D' (fun m => has_attribute D' m q) (traverse (t_node u')) =
    any_descendant (2 * enough D) D (fun m => has_attribute D m q) (traverse (t_node u)).
  Proof.
    intros (T1 & T2 & Sh & H1 & H2 & Hp).
    destruct (any_descendant_spec D F u (fun m => has_attribute D m q) (iv_rep D F I) T1 (2 * enough D)) as (b & -> & Hb).
    { pose proof (tree_size D F u I T1 H1) as Hs. unfold enough. lia. }
    destruct (any_descendant_spec D' F' u' (fun m => has_attribute D' m q) (iv_rep D' F' I') T2 (2 * enough D')) as (b' & -> & Hb').
    { pose proof (tree_size D' F' u' I' T2 H2) as Hs. unfold enough. lia. }
    f_equal. apply eq_true_iff_eq. rewrite Hb, Hb'. split.
    - intros (n' & Hn' & E). destruct (place_back u u' n' Sh Hn') as (n & P). exists n. split; [now apply in_combine_l in P|].
      now rewrite <- (same_has n n' q (Hp n n' P)).
    - intros (n & Hn & E). destruct (place_there u u' n Sh Hn) as (n' & P). exists n'. split; [now apply in_combine_r in P|].
      now rewrite (same_has n n' q (Hp n n' P)).
  Qed.

  (* Roots above at the same time. *)
  Definition under (n n' : nid) : Prop :=
    match parent_of F n, parent_of F' n' with
    | Some p, Some p' => is_root D' p' = is_root D p
    | None, None => True
    | _, _ => False
    end.

  Lemma twins_self u u' : twins u u' -> same_place t t' (t_node u) (t_node u').
  Proof. intros (_ & _ & _ & _ & _ & H). apply H. destruct u, u'. now left. Qed.

  Lemma same_namespaces u u' : twins u u' -> under (t_node u) (t_node u') ->
    write_namespaces D' (t_node u') = write_namespaces D (t_node u).
  Proof.
    intros T U. unfold write_namespaces. rewrite (same_tag _ _ _ (twins_self u u' T)), (same_any u u' (QId A_Href) T).
    rewrite (r_parent _ _ (iv_rep D F I)), (r_parent _ _ (iv_rep D' F' I')). unfold under in U.
    destruct (parent_of F (t_node u)), (parent_of F' (t_node u')); try easy. now rewrite U.
  Qed.

  Lemma same_attributes u u' : twins u u' -> under (t_node u) (t_node u') ->
    write_attributes W D' (t_node u') = write_attributes W D (t_node u).
  Proof.
    intros T U. pose proof (twins_self u u' T) as P. unfold write_attributes. rewrite (same_namespaces u u' T U).
    fold (ids_of (attributes D' (t_node u'))). fold (ids_of (attributes D (t_node u))).
    rewrite (same_svg _ _ P), (same_custom _ _ P). unfold has_id. now rewrite (sd_id _ _ _ _ _ _ (SN _ _ P)).
  Qed.

  Lemma same_start u u' : twins u u' -> (is_element D (t_node u) = true -> under (t_node u) (t_node u')) ->
    write_edge W D' (Start (t_node u')) = write_edge W D (Start (t_node u)).
  Proof.
    intros T U. pose proof (twins_self u u' T) as P. pose proof (SN _ _ P) as S. cbn [write_edge].
    rewrite (sd_type _ _ _ _ _ _ S). unfold is_element in U. pose proof (sd_text _ _ _ _ _ _ S) as X.
    destruct (node_type D (t_node u)); [easy| |now rewrite X by tauto|now rewrite X by tauto].
    rewrite (sd_tag _ _ _ _ _ _ S), (same_attributes u u' T (U eq_refl)), (same_tag _ _ _ P). reflexivity.
  Qed.
  Lemma same_end n n' : same_place t t' n n' -> write_edge W D' (End n') = write_edge W D (End n).
  Proof.
    intros P. cbn [write_edge]. rewrite (same_tag n n' _ P). unfold is_element. now rewrite (sd_type _ _ _ _ _ _ (SN n n' P)).
  Qed.

  Lemma flat_res_cons_eq {A B} (f : A -> res (list B)) x l : flat_res f (x :: l) = bind (f x) (fun a => bind (flat_res f l) (fun b => Ok (a ++ b))).
  Proof. reflexivity. Qed.
  Lemma flat_res_app_eq {A B} (f : A -> res (list B)) l m :
    flat_res f (l ++ m) = bind (flat_res f l) (fun a => bind (flat_res f m) (fun b => Ok (a ++ b))).
  Proof.
    clear. induction l as [|x l IH]; [cbn; now destruct (flat_res f m)|]. cbn [app]. rewrite !flat_res_cons_eq, IH.
    destruct (f x); [|easy|easy]. cbn [bind]. destruct (flat_res f l); [|easy|easy]. cbn [bind].
    destruct (flat_res f m); [|easy|easy]. cbn. now rewrite app_assoc.
  Qed.

  Lemma same_tree u : forall u', twins u u' -> (is_element D (t_node u) = true -> under (t_node u) (t_node u')) ->
    flat_res (write_edge W D') (edges u') = flat_res (write_edge W D) (edges u).
  Proof.
    induction u as [n ts IH] using tree_ind'. intros [n' ts'] T U. pose proof (twins_self _ _ T) as P. cbn [t_node] in P.
    pose proof (same_start _ _ T U) as Es. cbn [t_node] in Es.
    cbn [edges]. rewrite !flat_res_cons_eq, !flat_res_app_eq, Es.
    assert (E : flat_res (write_edge W D') (flat_map edges ts') = flat_res (write_edge W D) (flat_map edges ts)).
    { destruct T as (T1 & T2 & Sh & H1 & H2 & Hp). cbn [t_node] in H1, H2.
      inversion T1 as [? ? K1 A1]; subst. inversion T2 as [? ? K2 A2]; subst. inversion Sh as [? ? ? ? Sk]; subst.
      assert (C1 : forall v, In v ts -> tree_at F v /\ t_node v < fresh D /\ parent_of F (t_node v) = Some n).
      { intros v Hv. rewrite Forall_forall in A1. split; [now apply A1|]. split.
        - apply (tree_nodes_exist D F (T n ts) I T1 H1). cbn [preorder]. right. apply in_flat_map. exists v. split; [easy|apply preorder_self].
        - apply (wf_child F (r_wf _ _ (iv_rep D F I))). rewrite K1. now apply in_map. }
      assert (C2 : forall v, In v ts' -> tree_at F' v /\ t_node v < fresh D' /\ parent_of F' (t_node v) = Some n').
      { intros v Hv. rewrite Forall_forall in A2. split; [now apply A2|]. split.
        - apply (tree_nodes_exist D' F' (T n' ts') I' T2 H2). cbn [preorder]. right. apply in_flat_map. exists v. split; [easy|apply preorder_self].
        - apply (wf_child F' (r_wf _ _ (iv_rep D' F' I'))). rewrite K2. now apply in_map. }
      assert (C3 : forall a b, In (a, b) (places ts ts') -> same_place t t' a b).
      { intros a b H. apply Hp. unfold same_place. rewrite places_node. now right. }
      assert (C4 : is_root D' n' = is_root D n) by (unfold is_root; now rewrite (sd_type _ _ _ _ _ _ (SN _ _ P))).
      clear T1 T2 K1 K2 A1 A2 Hp Es U Sh. induction Sk as [|v v' ts ts' Sv Sk IHs]; [easy|].
      inversion IH as [|? ? IHv IHr]; subst. rewrite (places_cons v v' ts ts' Sv) in C3.
      cbn [flat_map]. rewrite !flat_res_app_eq. rewrite IHs; [|exact IHr| | |].
      2: { intros w Hw. apply C1. now right. }
      2: { intros w Hw. apply C2. now right. }
      2: { intros a b H. apply C3. apply in_or_app. now right. }
      destruct (C1 v (or_introl eq_refl)) as (V1 & V2 & V3). destruct (C2 v' (or_introl eq_refl)) as (W1 & W2 & W3).
      rewrite (IHv v'); [reflexivity| |].
      - repeat (split; [easy|]). intros a b H. apply C3. apply in_or_app. now left.
      - intros _. unfold under. now rewrite V3, W3. }
    rewrite E. cbn [flat_res]. now rewrite (same_end n n' P).
  Qed.
End Same.

Theorem same_output W D t D' t' : reachable D -> reachable D' -> document_tree D t -> document_tree D' t' ->
  same_document D t D' t' -> same_order t t' D D' -> write_dom W D' = write_dom W D.
Proof.
  intros R R' (F & S & Ht & Hr) (F' & S' & Ht' & Hr') (Sh & SN) SO.
  pose proof (shows_inv D F R S) as I. pose proof (shows_inv D' F' R' S') as I'.
  pose proof (iv_rlt D F I) as L. pose proof (iv_rlt D' F' I') as L'.
  assert (C : forall D F t, InvF D F -> tree_at F t -> t_node t = droot D ->
    traverse_collect (2 * enough D) (lk D) (traverse (droot D)) = Ok (edges t)).
  { clear. intros D F t I Ht Hr. pose proof (iv_rlt D F I) as Hroot. rewrite <- Hr in Hroot.
    pose proof (tree_size D F t I Ht Hroot) as Hsz. rewrite <- Hr.
    apply (traverse_collect_spec (lk D) F t); [apply I|easy|]. rewrite edges_length. unfold enough. lia. }
  unfold write_dom. rewrite (C D F t I Ht Hr), (C D' F' t' I' Ht' Hr'). cbn [bind].
  apply (same_tree W D D' F F' t t' I I' SN SO).
  - split; [easy|]. split; [easy|]. split; [easy|]. rewrite Hr, Hr'. easy.
  - rewrite Hr. intros H. exfalso. pose proof (proj2 (iv_root D F I (droot D) L) eq_refl) as E. unfold is_element in H. now rewrite E in H.
Qed.

(* Saving a document, loading it and saving it again gives the same output. *)
Theorem resave P W D F t : reachable D -> shows (lk D) F -> tree_at F t -> t_node t = droot D ->
  portable P W D F t -> settled D F t -> p_sheet P [] = [] ->
  exists evs items, write_dom W D = Ok evs /\ read_back evs = Some items /\ (exists top, reads_file items top) /\
    forall top, reads_file items top -> exists D', parse_svg P (Some top) = Ok (POk D') /\ write_dom W D' = Ok evs.
Proof.
  intros R S Ht Hr PO HS HP. destruct (round_trip P W D F t R S Ht Hr PO HS HP) as (evs & items & E & Er & Hx & H).
  exists evs, items. split; [exact E|]. split; [exact Er|]. split; [exact Hx|]. intros top Htop.
  destruct (H top Htop) as (D' & t' & Ep & Hd & Hs). exists D'. split; [exact Ep|]. rewrite <- E.
  apply (same_output W D t D' t'); [exact R| |now exists F|exact Hd|exact Hs|].
  - apply tame_reachable. exact (proj1 (proj2 (parsed_reachable P top D' Ep))).
  - intros n n' P'. destruct Hs as (_ & SN). specialize (SN n n' P'). unfold custom_names.
    assert (Q : forall m, In m (preorder t) -> filter (fun a => negb (is_svg_attr a)) (attributes D m) = []).
    { intros m Hm. destruct (filter _ (attributes D m)) as [|x l] eqn:Ef; [easy|]. exfalso.
      assert (Hin : In x (filter (fun a => negb (is_svg_attr a)) (attributes D m))) by (rewrite Ef; now left).
      apply filter_In in Hin. destruct Hin as (Hin & Hb). destruct (po_attr _ _ _ _ _ PO m x Hm Hin) as (a & e & Ea & _).
      unfold is_svg_attr in Hb. now rewrite Ea in Hb. }
    assert (Hn : In n (preorder t)) by now apply in_combine_l in P'. rewrite (Q n Hn).
    destruct (filter _ (attributes D' n')) as [|x l] eqn:Ef; [easy|]. exfalso.
    assert (Hin : In x (filter (fun a => negb (is_svg_attr a)) (attributes D' n'))) by (rewrite Ef; now left).
    apply filter_In in Hin. destruct Hin as (Hin & Hb). destruct x as [q v]. destruct (sd_back _ _ _ _ _ _ SN q v Hin) as (v0 & H0 & _).
    destruct (po_attr _ _ _ _ _ PO n _ Hn H0) as (a & e & Ea & _). cbn in Ea. subst q. discriminate Hb.
Qed.
