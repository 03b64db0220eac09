From Coq Require Import String List Bool PeanoNat NArith Lia Permutation.
From Verif Require Import Base Ids Names Links Tree Iter ForestSpec TreeSpec ListFacts TreeProofs TreeApi ForestFacts IterSpec
  IterProofs Data Attrs Slab NodeApi Doc Text Writer WriterSpec WriterProofs Loops History HistoryProofs AttrSpec AttrFacts LinkProofs InvProofs ApiProofs RootExact
  Guards GuardDoc GuardIter GuardSpec GuardDocProofs GuardDocApi GuardIterSpec GuardIterProofs GuardDesc GuardIterApi GuardWriter GuardWriterSpec.
Import ListNotations.
Open Scope list_scope.
Notation length := List.length.

Lemma value_bounds g W D v (M : Prop) :
  (forall n, link_target v = Some n -> held_mut g n -> M) ->
  bounds (exists n, link_target v = Some n /\ held_mut g n) M (write_value W D v) (g_write_value g W D v).
Proof.
  intros H.
  assert (Hl : forall n, link_target v = Some n ->
    bounds (exists n, link_target v = Some n /\ held_mut g n) M (write_value W D v)
      (reading g n (Ok (write_value W D v)))).
  { intros n E. apply (bounds_weaken _ _ _ _ _ _ (bounds_reading g n False M _ _ (bounds_ok False M _ (fun x => x)))).
    - intros (m & E' & Hm). left. rewrite E in E'. now injection E' as ->.
    - intros [Hn|Hm]; [exact (H n E Hn)|exact Hm]. }
  destruct v; try (apply bounds_ok; intros (n & [=] & _)); exact (Hl _ eq_refl).
Qed.

Lemma flat_bounds {A B} (f gf : A -> res (list B)) (must : A -> Prop) (M : Prop) l :
  (forall x r, In x l -> f x = Ok r -> bounds (must x) M r (gf x)) ->
  forall r, flat_res f l = Ok r -> bounds (exists x, In x l /\ must x) M r (flat_res gf l).
Proof.
  induction l as [|x l IH]; intros H r E; cbn [flat_res] in *.
  - injection E as <-. apply bounds_ok. intros (x & [] & _).
  - fold (flat_res f) in E. fold (flat_res gf).
    destruct (f x) as [a| |] eqn:Ea; try discriminate. cbn [bind] in E.
    destruct (flat_res f l) as [b| |] eqn:Eb; try discriminate. injection E as <-.
    assert (B1 := H x a (or_introl eq_refl) Ea).
    assert (B2 := IH (fun y r Hy => H y r (or_intror Hy)) b eq_refl).
    apply (bounds_weaken (must x \/ (exists y, In y l /\ must y) \/ False) _ (M \/ M \/ M) M).
    + eapply bounds_bind; [exact B1|]. eapply bounds_bind; [exact B2|]. apply bounds_ok. tauto.
    + intros (y & [<-|Hy] & Hm); [now left|]. right. left. now exists y.
    + tauto.
Qed.

Section Write.
  Context (g : guards) (W : writers) (D : dom) (F : forest) (t : tree).
  Context (R : Rep (lk D) F) (Hat : tree_at F t).
  Context (Hroot : t_node t = droot D).
  Context (Hfew : length (edges t) < 2 * enough D).
  Context (Huniq : forall n, NoDup (map a_name (attributes D n))).
  Notation M := (write_blocked g D t).

  Lemma in_tree x : held_mut g x -> In x (preorder t) -> M.
  Proof. intros H Hx. exists x. split; [exact H|now left]. Qed.

  Definition link_held (n : nid) : Prop := exists a x, In a (attributes D n) /\ a_name a <> QId A_Unicode /\
    link_target (a_value a) = Some x /\ held_mut g x.
  Lemma link_may n : In n (preorder t) -> is_element D n = true -> link_held n -> M.
  Proof.
    intros Hn He (a & x & Ha & Hu & Hx & Hh). exists x. split; [exact Hh|]. right. exists n, a.
    split; [exact Hn|]. split; [exact He|]. split; [exact Ha|]. split; [exact Hu|exact Hx].
  Qed.

  Lemma any_bounds p : forall u, tree_at F u -> (forall x, In x (preorder u) -> In x (preorder t)) ->
    forall fuel pre mid it, t_state (lk D) u pre mid it -> length mid < fuel ->
    forall r, any_descendant fuel D p it = Ok r ->
    bounds False M r (g_any_descendant fuel g D p it).
  Proof.
    intros u Hu Hsub. induction fuel as [|fuel IH]; intros pre mid it Hs Hf r E; [lia|].
    cbn [any_descendant g_any_descendant] in *. pose proof Hs as (El & _).
    destruct (ends_first mid) as (cs & [(-> & E0)|(x & post & -> & E0)]).
    - rewrite map_length in Hf. destruct (proj2 (desc_next_eq (lk D) F u R Hu g cs (S fuel) pre it Hf) Hs) as (it' & E1 & Eg).
      rewrite Eg. cbv beta iota in E. rewrite E1 in E. cbn [bind] in E. injection E as <-.
      destruct (existsb _ _) eqn:Eh; [|apply bounds_ok; tauto]. right. split; [reflexivity|].
      apply existsb_exists in Eh. destruct Eh as (e & He & Hst). apply stops_iff in Hst.
      apply (in_tree (edge_node e)); [apply Hst|]. apply Hsub, edges_In. rewrite El. apply in_app_iff. now right.
    - rewrite app_length, map_length in Hf. cbn [length] in Hf.
      assert (Hf' : length cs < S fuel) by lia.
      destruct (proj1 (desc_next_eq (lk D) F u R Hu g cs (S fuel) pre it Hf') x post Hs) as (it' & E1 & Hs' & Eg).
      rewrite Eg. rewrite E1 in E. cbn [bind] in E.
      assert (Hxt : In x (preorder t)).
      { apply Hsub. apply (edges_In u (Start x)). rewrite El. apply in_app_iff. right. apply in_app_iff. right. now left. }
      destruct (existsb _ _) eqn:Eh.
      + right. split; [reflexivity|].
        apply existsb_exists in Eh. destruct Eh as (e & He & Hst). apply stops_iff in Hst.
        apply (in_tree (edge_node e)); [apply Hst|]. apply in_app_iff in He. destruct He as [He|[<-|[]]]; [|exact Hxt].
        apply Hsub, edges_In. rewrite El. apply in_app_iff. right. apply in_app_iff. now left.
      + cbn [bind].
        apply (bounds_weaken (held_mut g x \/ False) _ (held_mut g x \/ M) M).
        * apply bounds_reading. destruct (p x); [injection E as <-; apply bounds_ok; tauto|].
          apply (IH _ _ _ Hs'); [lia|exact E].
        * tauto.
        * intros [H|H]; [exact (in_tree x H Hxt)|exact H].
  Qed.

  Lemma read_self {A} n (m : Prop) (v : A) r : In n (preorder t) -> bounds m M v r -> bounds (held_mut g n \/ m) M v (reading g n r).
  Proof.
    intros Hn B. apply (bounds_weaken _ _ _ _ _ _ (bounds_reading g n _ _ _ _ B)); [tauto|].
    intros [H|H]; [exact (in_tree n H Hn)|exact H].
  Qed.

  Lemma namespaces_bounds n r : In n (preorder t) -> n <> droot D -> write_namespaces D n = Ok r ->
    bounds False M r (g_write_namespaces g D n).
  Proof.
    intros Hn Hr. unfold write_namespaces, g_write_namespaces. intros E.
    apply (bounds_weaken (held_mut g n \/ False) _ M M); [|tauto|tauto]. apply read_self; [exact Hn|].
    destruct (has_tag_name D n (QId E_Svg)); [|injection E as <-; apply bounds_ok; tauto].
    apply (bounds_weaken (held_mut g n \/ False) _ M M); [|tauto|tauto]. apply read_self; [exact Hn|].
    destruct (parent (lk D) n) as [p|] eqn:Ep; [|injection E as <-; apply bounds_ok; tauto].
    assert (Hp : In p (preorder t)).
    { unfold parent in Ep. rewrite (r_parent _ _ R) in Ep. rewrite <- Hroot in Hr.
      exact (up_in (lk D) F t R Hat n p Hn Hr Ep). }
    apply (bounds_weaken (held_mut g p \/ False) _ M M); [|tauto|tauto]. apply read_self; [exact Hp|].
    destruct (is_root D p); [|injection E as <-; apply bounds_ok; tauto].
    destruct (any_descendant _ D _ (traverse n)) as [b| |] eqn:Eb; try discriminate. cbn [bind] in E. injection E as <-.
    destruct (subtree_at F t n Hat Hn) as (u & Hu & Hau & Hl).
    apply (bounds_weaken (False \/ False) _ (M \/ M) M); [|tauto|tauto].
    apply (bounds_bind _ _ _ _ b).
    - rewrite <- Hu in Eb |- *. apply (any_bounds _ u Hau) with (pre := []) (mid := edges u); [| | |exact Eb].
      + intros x Hx. apply (preorder_iff F u x (r_wf _ _ R) Hau) in Hx.
        apply (preorder_iff F t x (r_wf _ _ R) Hat). apply (anc_trans F _ n); [|now rewrite <- Hu].
        now apply (preorder_iff F t n (r_wf _ _ R) Hat).
      + split; [reflexivity|]. now rewrite edges_hd.
      + rewrite edges_length in *. lia.
    - apply bounds_ok. tauto.
  Qed.

  Lemma svg_attr_bounds n x r : In n (preorder t) -> is_element D n = true ->
    In x (map (fun x => (fst x, a_name (snd x))) (attrs_svg (attributes D n))) ->
    write_svg_attr W D (attributes D n) x = Ok r ->
    bounds (exists a y, In a (attributes D n) /\ a_name a = snd x /\ a_name a <> QId A_Unicode /\
              link_target (a_value a) = Some y /\ held_mut g y) M r
      (g_write_svg_attr g W D (attributes D n) x).
  Proof.
    intros Hn He Hx. rewrite attrs_svg_map, map_map in Hx. apply in_map_iff in Hx. destruct Hx as (a & <- & Ha).
    apply filter_In in Ha. destruct Ha as (Ha & Hs). unfold write_svg_attr, g_write_svg_attr. cbn [fst snd].
    assert (Ea : a_name (snd (with_id a)) = a_name a) by (unfold with_id; destruct (a_name a) eqn:Hq; cbn [snd]; exact Hq).
    rewrite Ea, (attrs_get_in _ a (Huniq n) Ha). cbn [unwrap bind].
    assert (Ef : a_name a = QId (fst (with_id a))).
    { unfold with_id, is_svg_attr in *. destruct (a_name a); [reflexivity|discriminate]. }
    destruct (attr_id_str (fst (with_id a))) as [s| |]; cbn [bind]; try discriminate.
    intros E.
    assert (One : forall b, In b (attributes D n) -> a_name b = a_name a -> b = a).
    { intros b Hb Hq. pose proof (attrs_get_in _ b (Huniq n) Hb) as E1. rewrite Hq, (attrs_get_in _ a (Huniq n) Ha) in E1.
      now injection E1. }
    destruct (aid_eqb (fst (with_id a)) A_Unicode) eqn:Eu.
    - assert (Hb : bounds False M r (Ok r)) by (apply bounds_ok; tauto). apply aid_eqb_eq in Eu.
      destruct (a_value a); (injection E as <-; apply (bounds_weaken _ _ _ _ _ _ Hb); [|tauto]);
        intros (b & y & Hb1 & Hb2 & Hb3 & _); apply Hb3; rewrite Hb2, Ef, Eu; reflexivity.
    - injection E as <-.
      assert (Hu : a_name a <> QId A_Unicode).
      { intros H. rewrite Ef in H. injection H as H. rewrite H in Eu. discriminate. }
      assert (B : bounds (exists y, link_target (a_value a) = Some y /\ held_mut g y) M
                    (write_value W D (a_value a)) (g_write_value g W D (a_value a))).
      { apply value_bounds. intros y Hy Hh. apply (link_may n Hn He). exists a, y.
        split; [exact Ha|]. split; [exact Hu|]. split; [exact Hy|exact Hh]. }
      apply (bounds_weaken ((exists y, link_target (a_value a) = Some y /\ held_mut g y) \/ False) _ (M \/ M) M).
      + eapply bounds_bind; [exact B|]. apply bounds_ok. tauto.
      + intros (b & y & Hb1 & Hb2 & Hb3 & Hb4 & Hb5). left. exists y. rewrite <- (One b Hb1 Hb2). now split.
      + tauto.
  Qed.

  Lemma custom_bounds n : In n (preorder t) -> is_element D n = true ->
    forall l, (forall a, In a l -> In a (attributes D n)) ->
    bounds (exists a y s, In a l /\ a_name a = QName s /\ link_target (a_value a) = Some y /\ held_mut g y) M
      (flat_map (write_custom_attr W D) l) (flat_res (g_write_custom_attr g W D) l).
  Proof.
    intros Hn He l Hl. 
    assert (E : flat_res (fun a => Ok (write_custom_attr W D a)) l = Ok (flat_map (write_custom_attr W D) l)).
    { clear Hl. induction l as [|a l IH]; [reflexivity|]. cbn [flat_res flat_map].
      fold (flat_res (fun a => Ok (write_custom_attr W D a))). now rewrite IH. }
    apply (bounds_weaken (exists a, In a l /\ (exists y s, a_name a = QName s /\ link_target (a_value a) = Some y /\ held_mut g y))
      _ M M).
    - apply (flat_bounds (fun a => Ok (write_custom_attr W D a))); [|exact E].
      intros a r Ha [= <-]. unfold write_custom_attr, g_write_custom_attr. destruct (a_name a) as [i|s] eqn:Ea.
      + apply bounds_ok. intros (y & s & [=] & _).
      + assert (B : bounds (exists y, link_target (a_value a) = Some y /\ held_mut g y) M
                      (write_value W D (a_value a)) (g_write_value g W D (a_value a))).
        { apply value_bounds. intros y Hy Hh. apply (link_may n Hn He). exists a, y.
          split; [now apply Hl|]. split; [rewrite Ea; discriminate|]. split; [exact Hy|exact Hh]. }
        apply (bounds_weaken ((exists y, link_target (a_value a) = Some y /\ held_mut g y) \/ False) _ (M \/ M) M).
        * eapply bounds_bind; [exact B|]. apply bounds_ok. tauto.
        * intros (y & s' & _ & H1 & H2). left. exists y. now split.
        * tauto.
    - intros (a & y & s & Ha & H). exists a. split; [exact Ha|]. now exists y, s.
    - tauto.
  Qed.

  Lemma attributes_bounds n r : In n (preorder t) -> n <> droot D -> is_element D n = true ->
    write_attributes W D n = Ok r -> bounds (link_held n) M r (g_write_attributes g W D n).
  Proof.
    intros Hn Hr He. unfold write_attributes, g_write_attributes.
    destruct (write_namespaces D n) as [ns| |] eqn:En; try discriminate. cbn [bind].
    set (ids := sort_by _ _). destruct (flat_res (write_svg_attr W D (attributes D n)) ids) as [svg| |] eqn:Es; try discriminate.
    cbn [bind]. intros [= <-].
    assert (Hids : forall x, In x ids <-> In x (map (fun x => (fst x, a_name (snd x))) (attrs_svg (attributes D n)))).
    { intros x. split; apply Permutation_in; [|symmetry]; apply sort_by_perm. }
    set (idev := if has_id D n then [EAttr (lit "id") (id_of D n)] else []).
    assert (B1 : bounds False M idev (reading g n (if has_id D n then reading g n (Ok [EAttr (lit "id") (id_of D n)]) else Ok []))).
    { apply (bounds_weaken (held_mut g n \/ False) _ M M); [|tauto|tauto]. apply read_self; [exact Hn|].
      unfold idev. destruct (has_id D n); [|apply bounds_ok; tauto].
      apply (bounds_weaken (held_mut g n \/ False) _ M M); [|tauto|tauto]. apply read_self; [exact Hn|]. apply bounds_ok. tauto. }
    pose proof (flat_bounds (write_svg_attr W D (attributes D n)) (g_write_svg_attr g W D (attributes D n)) _ M ids
      (fun x r Hx => svg_attr_bounds n x r Hn He (proj1 (Hids x) Hx)) svg Es) as B2.
    pose proof (custom_bounds n Hn He (attributes D n) (fun a H => H)) as B3.
    pose proof (namespaces_bounds n ns Hn Hr En) as B0.
    match type of B2 with bounds ?m2 _ _ _ => match type of B3 with bounds ?m3 _ _ _ =>
      apply (bounds_weaken (False \/ False \/ held_mut g n \/ m2 \/ m3 \/ False) _ (M \/ M \/ M) M) end end.
    - eapply bounds_bind; [exact B0|]. eapply bounds_bind; [exact B1|].
      apply read_self; [exact Hn|].
      match goal with |- bounds (?a \/ ?b \/ False) _ _ _ => apply (bounds_weaken (a \/ b \/ False) _ (M \/ M \/ M) M) end;
        [|tauto|tauto].
      eapply bounds_bind; [exact B2|]. eapply bounds_bind; [exact B3|]. apply bounds_ok. tauto.
    - intros (a & y & Ha & Hu & Hy & Hh). do 3 right. destruct (a_name a) as [i|s] eqn:Ea.
      + left. exists (i, a_name a). split.
        * apply Hids. rewrite attrs_svg_map, map_map. apply in_map_iff. exists a. split.
          -- unfold with_id. rewrite Ea. cbn [fst snd]. now rewrite Ea.
          -- apply filter_In. split; [exact Ha|]. unfold is_svg_attr. now rewrite Ea.
        * exists a, y. split; [exact Ha|]. split; [reflexivity|]. rewrite Ea. split; [exact Hu|]. now split.
      + right. left. exists a, y, s. split; [exact Ha|]. split; [exact Ea|]. now split.
    - tauto.
  Qed.

  Context (Htop : node_type D (droot D) = NRoot).

  Definition edge_must (e : edge) : Prop :=
    match e with
    | Start n => held_mut g n \/ is_element D n = true /\ link_held n
    | End n => held_mut g n
    end.

  Lemma edge_bounds e r : In (edge_node e) (preorder t) -> write_edge W D e = Ok r ->
    bounds (edge_must e) M r (g_write_edge g W D e).
  Proof.
    destruct e as [n|n]; cbn [edge_node write_edge g_write_edge edge_must]; intros Hn E.
    - apply read_self; [exact Hn|]. unfold is_element. destruct (node_type D n) eqn:Et.
      + injection E as <-. apply bounds_ok. now intros ([=] & _).
      + apply (bounds_weaken (held_mut g n \/ link_held n) _ M M); [|tauto|tauto]. apply read_self; [exact Hn|].
        destruct (tag_str (tag_name D n)) as [name| |]; try discriminate. cbn [bind] in E |- *.
        destruct (write_attributes W D n) as [attrs| |] eqn:Ea; try discriminate. cbn [bind] in E. injection E as <-.
        apply (bounds_weaken (link_held n \/ held_mut g n \/ False) _ (M \/ M) M); [|tauto|tauto].
        eapply bounds_bind; [|apply read_self; [exact Hn|apply bounds_ok; tauto]].
        apply attributes_bounds; [exact Hn| | |exact Ea].
        * intros ->. rewrite Htop in Et. discriminate.
        * unfold is_element. now rewrite Et.
      + injection E as <-. apply (bounds_weaken (held_mut g n \/ False) _ M M); [|now intros ([=] & _)|tauto].
        apply read_self; [exact Hn|]. apply bounds_ok. tauto.
      + injection E as <-. apply (bounds_weaken (held_mut g n \/ False) _ M M); [|now intros ([=] & _)|tauto].
        apply read_self; [exact Hn|]. apply bounds_ok. tauto.
    - injection E as <-. apply (bounds_weaken (held_mut g n \/ held_mut g n \/ False) _ M M); [|tauto|tauto].
      apply read_self; [exact Hn|]. apply read_self; [exact Hn|]. apply bounds_ok. tauto.
  Qed.

  Lemma state_next pre mid it : t_state (lk D) t pre mid it ->
    match mid with
    | [] => g_traverse_next g (lk D) it = Ok (None, it)
    | e :: mid' => exists it', t_state (lk D) t (pre ++ [e]) mid' it' /\
        g_traverse_next g (lk D) it = if stops g (t_node t) e then Panic PBorrow else Ok (Some e, it')
    end.
  Proof.
    intros Hs. pose proof (traverse_next_spec (lk D) F t pre mid it R Hat Hs) as Hn.
    destruct Hs as (_ & Ei). destruct mid as [|e mid].
    - rewrite g_traverse_next_eq, Hn, Ei. cbn [t_root t_next t_back ostops hd_error stops].
      rewrite Nat.eqb_refl, andb_false_r. reflexivity.
    - destruct Hn as (it' & Hn & Hs'). exists it'. split; [exact Hs'|]. rewrite g_traverse_next_eq, Hn.
      unfold traverse_next in Hn. destruct (traverse_finished (lk D) it); [discriminate|].
      rewrite Ei. cbn [t_root t_next t_back ostops hd_error stops]. rewrite Nat.eqb_refl. reflexivity.
  Qed.

  Lemma loop_bounds : forall fuel pre mid it r, t_state (lk D) t pre mid it -> length mid < fuel ->
    flat_res (write_edge W D) mid = Ok r ->
    bounds (exists e, In e mid /\ edge_must e) M r (g_write_loop fuel g W D it).
  Proof.
    induction fuel as [|fuel IH]; intros pre mid it r Hs Hf E; [lia|]. cbn [g_write_loop].
    pose proof Hs as (El & _). pose proof (state_next pre mid it Hs) as Hn.
    destruct mid as [|e mid].
    - rewrite Hn. cbn [bind]. injection E as <-. apply bounds_ok. intros (e & [] & _).
    - destruct Hn as (it' & Hs' & ->).
      assert (Hin : In (edge_node e) (preorder t)).
      { apply edges_In. rewrite El. apply in_app_iff. right. now left. }
      destruct (stops g (t_node t) e) eqn:Est.
      + right. split; [reflexivity|]. apply stops_iff in Est.
        exact (in_tree _ (proj1 Est) Hin).
      + cbn [bind]. cbn [flat_res] in E. fold (flat_res (write_edge W D)) in E.
        destruct (write_edge W D e) as [a| |] eqn:Ea; try discriminate. cbn [bind] in E.
        destruct (flat_res (write_edge W D) mid) as [b| |] eqn:Eb; try discriminate. injection E as <-.
        cbn [length] in Hf. assert (Hf' : length mid < fuel) by lia.
        pose proof (edge_bounds e a Hin Ea) as B1. pose proof (IH _ _ _ b Hs' Hf' Eb) as B2.
        apply (bounds_weaken (edge_must e \/ (exists x, In x mid /\ edge_must x) \/ False) _ (M \/ M \/ M) M).
        * eapply bounds_bind; [exact B1|]. eapply bounds_bind; [exact B2|]. apply bounds_ok. tauto.
        * intros (x & [<-|Hx] & Hm); [now left|]. right. left. now exists x.
        * tauto.
  Qed.

  Theorem write_dom_guards evs : write_dom W D = Ok evs -> same_unless M (Ok evs) (g_write_dom g W D).
  Proof.
    intros E. unfold write_dom in E. rewrite <- Hroot in E.
    rewrite (traverse_collect_spec (lk D) F t _ R Hat Hfew) in E. cbn [bind] in E.
    apply (bounds_same M M evs); [reflexivity| |reflexivity].
    apply (bounds_weaken (exists e, In e (edges t) /\ edge_must e) _ M M); [| |tauto].
    - unfold g_write_dom. rewrite <- Hroot.
      apply (loop_bounds _ [] (edges t)); [|exact Hfew|exact E]. split; [reflexivity|]. now rewrite edges_hd.
    - intros (x & Hh & H).
      assert (S : forall n, In n (preorder t) -> In (Start n) (edges t)).
      { intros n Hn. apply starts_In. now rewrite starts_edges. }
      destruct H as [Hx|(n & a & Hn & He & Ha & Hu & Hl)].
      + exists (Start x). split; [now apply S|]. now left.
      + exists (Start n). split; [now apply S|]. right. split; [exact He|]. exists a, x.
        split; [exact Ha|]. split; [exact Hu|]. now split.
  Qed.
End Write.

Theorem write_dom_under g W D F t evs : reachable D -> shows (lk D) F -> tree_at F t -> t_node t = droot D ->
  write_dom W D = Ok evs -> same_unless (write_blocked g D t) (Ok evs) (g_write_dom g W D).
Proof.
  intros H S Ht Hr E. pose proof (shows_inv D F H S) as I.
  pose proof (root_exists D H) as Hd.
  apply (write_dom_guards g W D F t (proj1 (shows_Rep _ _) S) Ht Hr).
  - apply (edges_few D F t H); [now rewrite Hr|exact S|exact Ht].
  - exact (li_uniq D (iv_link D F I)).
  - apply (iv_root D F I); [exact Hd|reflexivity].
  - exact E.
Qed.

(* A document whose tree is finite is written. *)
Lemma write_dom_total W D F t : reachable D -> shows (lk D) F -> tree_at F t -> t_node t = droot D ->
  exists evs, write_dom W D = Ok evs.
Proof.
  intros H S Ht Hr. pose proof (shows_inv D F H S) as I. pose proof (proj1 (shows_Rep _ _) S) as R.
  pose proof (root_exists D H) as Hd.
  assert (Hf : length (edges t) < 2 * enough D) by (apply (edges_few D F t H); [now rewrite Hr|exact S|exact Ht]).
  unfold write_dom. rewrite <- Hr, (traverse_collect_spec (lk D) F t _ R Ht Hf). cbn [bind].
  assert (G : forall l, (forall e, In e l -> In (edge_node e) (preorder t)) -> exists evs, flat_res (write_edge W D) l = Ok evs).
  { induction l as [|e l IH]; intros Hl; [now exists []|]. cbn [flat_res]. fold (flat_res (write_edge W D)).
    destruct IH as (b & Eb); [intros x Hx; apply Hl; now right|].
    assert (Ha : exists a, write_edge W D e = Ok a).
    { destruct e as [n|n]; cbn [write_edge]; [|now eexists].
      destruct (node_type D n); try now eexists.
      destruct (tag_str_ok D F n) as (s & -> & _). cbn [bind].
      pose proof (Hl (Start n) (or_introl eq_refl)) as Hn. cbn [edge_node] in Hn.
      assert (Hn' : n < fresh D).
      { apply (tree_nodes_exist D F t I Ht); [now rewrite Hr|exact Hn]. }
      destruct (subtree_at F t n Ht Hn) as (t' & En & Ht' & _).
      destruct (write_attributes_spec W D F I t' n Ht' En Hn') as (a & out & -> & _). cbn [bind]. now eexists. }
    destruct Ha as (a & ->). cbn [bind]. rewrite Eb. cbn [bind]. now eexists. }
  apply G. intros e He. now apply edges_In.
Qed.

Theorem to_string_under g W D F t : reachable D -> shows (lk D) F -> tree_at F t -> t_node t = droot D ->
  exists evs, write_dom W D = Ok evs /\ same_unless (write_blocked g D t) (Ok evs) (g_write_dom g W D).
Proof.
  intros H S Ht Hr. destruct (write_dom_total W D F t H S Ht Hr) as (evs & E). exists evs. split; [exact E|].
  exact (write_dom_under g W D F t evs H S Ht Hr E).
Qed.
