(* What is written does not depend on the order of SVG attributes and users. *)
From Coq Require Import List Bool PeanoNat NArith Lia Sorting.Permutation Sorting.Sorted.
From Verif Require Import Base Ids Names Links Tree Iter Data Attrs Slab NodeApi Doc Text AttrFacts LinkProofs History ApiProofs Writer WriterProofs
  SameProofs OrderSpec OrderProofs.
Import ListNotations.
Open Scope nat_scope.
Open Scope list_scope.

Lemma sorted_unique {A} (key : A -> N) (l l' : list A) : (forall a b, In a l -> In b l -> key a = key b -> a = b) ->
  StronglySorted (fun a b => (key a <= key b)%N) l -> StronglySorted (fun a b => (key a <= key b)%N) l' -> Permutation l l' -> l = l'.
Proof.
  revert l'. induction l as [|a l IH]; intros l' Hi S S' P.
  - apply Permutation_nil in P. now rewrite P.
  - destruct l' as [|b l']; [apply Permutation_sym, Permutation_nil in P; discriminate|].
    inversion S as [|? ? Sl Fa]; subst. inversion S' as [|? ? Sl' Fb]; subst. rewrite Forall_forall in Fa, Fb.
    assert (E : a = b).
    { assert (Hb : In b (a :: l)) by (apply (Permutation_in b (Permutation_sym P)); now left).
      assert (Ha : In a (b :: l')) by (apply (Permutation_in a P); now left).
      apply Hi; [now left|exact Hb|]. destruct Hb as [->|Hb]; [reflexivity|]. destruct Ha as [->|Ha]; [reflexivity|].
      apply Fa in Hb. apply Fb in Ha. lia. }
    subst b. f_equal. apply IH; try assumption; [|now apply Permutation_cons_inv in P].
    intros x y Hx Hy. apply Hi; now right.
Qed.
Lemma svg_perm l l' : Permutation l l' -> Permutation (attrs_svg l) (attrs_svg l').
Proof.
  induction 1 as [|x l l' _ IH|x y l|l l' l'' _ IH1 _ IH2]; cbn [attrs_svg].
  - constructor.
  - destruct (a_name x); [now constructor|exact IH].
  - destruct (a_name x), (a_name y); try reflexivity. constructor.
  - now rewrite IH1.
Qed.
Lemma svg_named_in l x : In x (attrs_svg l) -> a_name (snd x) = QId (fst x).
Proof.
  induction l as [|a l IH]; cbn [attrs_svg]; [intros []|]. destruct (a_name a) eqn:E; [|exact IH].
  intros [<-|H]; [exact E|now apply IH].
Qed.
Lemma ids_perm l l' : Permutation l l' ->
  sort_by (fun x => aid_idx (fst x)) (map (fun x => (fst x, a_name (snd x))) (attrs_svg l')) =
  sort_by (fun x => aid_idx (fst x)) (map (fun x => (fst x, a_name (snd x))) (attrs_svg l)).
Proof.
  intros P. apply (sorted_unique (fun x => aid_idx (fst x))).
  - intros a b Ha Hb E. apply (Permutation_in _ (sort_by_perm _ _)) in Ha, Hb. apply in_map_iff in Ha, Hb.
    destruct Ha as (x & <- & Hx), Hb as (y & <- & Hy). apply svg_named_in in Hx, Hy. cbn [fst] in *. apply aid_idx_inj in E. congruence.
  - apply sort_by_sorted.
  - apply sort_by_sorted.
  - rewrite !sort_by_perm. now apply Permutation_map, svg_perm, Permutation_sym.
Qed.
Lemma custom_filter W D l : flat_map (write_custom_attr W D) l =
  flat_map (write_custom_attr W D) (filter (fun a => match a_name a with QName _ => true | QId _ => false end) l).
Proof.
  induction l as [|a l IH]; [reflexivity|]. cbn [flat_map filter]. unfold write_custom_attr at 1. destruct (a_name a) eqn:E; [exact IH|].
  cbn [flat_map]. unfold write_custom_attr at 2. rewrite E, IH. reflexivity.
Qed.

Section S.
  Variables (W : writers) (D D' : dom).
  Hypothesis R : rel D D'.
  Hypothesis C : forall n, exists_node D n -> custom_attrs D' n = custom_attrs D n.

  Lemma customs n : custom_attrs D' n = custom_attrs D n.
  Proof.
    destruct (Nat.lt_ge_cases n (fresh D)) as [H|H]; [now apply C|].
    destruct (HistoryProofs.reachable_inv D (rl_reach D D' R)) as (F & I & _).
    destruct (HistoryProofs.reachable_inv D' (rl_reach' D D' R)) as (F' & I' & _).
    unfold custom_attrs, attributes. rewrite (InvProofs.iv_blank D F I n H), (InvProofs.iv_blank D' F' I' n); [reflexivity|].
    now rewrite (rl_fresh D D' R).
  Qed.
  Lemma next_item_sim r e : next_item (lk D') r e = next_item (lk D) r e.
  Proof. destruct e as [n|n]; cbn [next_item]; destruct (rel_nav D D' R n) as (e1 & e2 & _ & e3 & _); now rewrite ?e1, ?e2, ?e3. Qed.
  Lemma traverse_next_sim it : traverse_next (lk D') it = traverse_next (lk D) it.
  Proof.
    unfold traverse_next, traverse_finished. destruct (t_back it) as [b|]; [|reflexivity]. rewrite next_item_sim.
    destruct (oedge_eqb _ _); [reflexivity|]. destruct (t_next it); [|reflexivity]. now rewrite next_item_sim.
  Qed.
  Lemma collect_sim fuel : forall it, traverse_collect fuel (lk D') it = traverse_collect fuel (lk D) it.
  Proof.
    induction fuel as [|f IH]; intros it; [reflexivity|]. cbn [traverse_collect]. rewrite traverse_next_sim.
    destruct (traverse_next (lk D) it) as [[e|] it']; [|reflexivity]. now rewrite IH.
  Qed.
  Lemma descendants_sim fuel : forall it, descendants_next fuel (lk D') it = descendants_next fuel (lk D) it.
  Proof.
    induction fuel as [|f IH]; intros it; [reflexivity|]. cbn [descendants_next]. rewrite traverse_next_sim.
    destruct (traverse_next (lk D) it) as [[[n|n]|] it']; try reflexivity. apply IH.
  Qed.
  Lemma any_sim p q : (forall n, p n = q n) -> forall fuel it, any_descendant fuel D' p it = any_descendant fuel D q it.
  Proof.
    intros H. induction fuel as [|f IH]; intros it; [reflexivity|]. cbn [any_descendant]. rewrite descendants_sim.
    destruct (descendants_next (S f) (lk D) it) as [[[n|] it']| |]; try reflexivity. cbn [bind]. rewrite H, IH. reflexivity.
  Qed.
  Lemma value_sim v : write_value W D' v = write_value W D v.
  Proof. destruct v; cbn [write_value]; rewrite ?(si_id _ _ _ (rl_all D D' R _)); reflexivity. Qed.
  Lemma tag_sim n t : has_tag_name D' n t = has_tag_name D n t.
  Proof. unfold has_tag_name. now rewrite (si_tag _ _ _ (rl_all D D' R n)). Qed.
  Lemma namespaces_sim n : write_namespaces D' n = write_namespaces D n.
  Proof.
    unfold write_namespaces. rewrite tag_sim. destruct (has_tag_name D n (QId E_Svg)); [|reflexivity].
    destruct (rel_nav D D' R n) as (e & _). rewrite e. destruct (parent (lk D) n) as [p|]; [|reflexivity].
    unfold is_root. rewrite (si_type _ _ _ (rl_all D D' R p)). destruct (ntype_eqb _ _); [|reflexivity].
    unfold enough. rewrite (rl_fresh D D' R).
    rewrite (any_sim _ (fun m => has_attribute D m (QId A_Href))); [reflexivity|]. intros m. now apply rel_has.
  Qed.
  Lemma attributes_sim n : write_attributes W D' n = write_attributes W D n.
  Proof.
    unfold write_attributes. rewrite namespaces_sim. destruct (write_namespaces D n); [|reflexivity|reflexivity]. cbn [bind]. cbv zeta.
    rewrite (ids_perm (attributes D n) (attributes D' n)) by (apply Permutation_sym, (rl_all D D' R n)).
    assert (E : flat_res (write_svg_attr W D' (attributes D' n))
                  (sort_by (fun x => aid_idx (fst x)) (map (fun x => (fst x, a_name (snd x))) (attrs_svg (attributes D n)))) =
                flat_res (write_svg_attr W D (attributes D n))
                  (sort_by (fun x => aid_idx (fst x)) (map (fun x => (fst x, a_name (snd x))) (attrs_svg (attributes D n))))).
    { apply flat_res_ext. intros x. unfold write_svg_attr. rewrite (rel_get D D' n _ R). destruct (attrs_get (attributes D n) (snd x)); [|reflexivity].
      cbn [unwrap bind]. destruct (attr_id_str (fst x)); [|reflexivity|reflexivity]. cbn [bind].
      destruct (aid_eqb _ _); [reflexivity|]. now rewrite value_sim. }
    rewrite E. clear E. destruct (flat_res _ _); [|reflexivity|reflexivity]. cbn [bind].
    unfold has_id. rewrite (si_id _ _ _ (rl_all D D' R n)), (custom_filter W D'), (custom_filter W D).
    pose proof (customs n) as Ec. unfold custom_attrs in Ec. rewrite Ec.
    assert (G : forall l, flat_map (write_custom_attr W D') l = flat_map (write_custom_attr W D) l).
    { induction l as [|x l IH]; [reflexivity|]. cbn [flat_map]. rewrite IH. unfold write_custom_attr. now rewrite value_sim. }
    now rewrite G.
  Qed.
  Lemma edge_sim e : write_edge W D' e = write_edge W D e.
  Proof.
    destruct e as [n|n]; cbn [write_edge].
    - destruct (rl_all D D' R n) as [h1 h2 _ h4 _ _]. rewrite h1, h2, h4, attributes_sim, tag_sim. reflexivity.
    - now rewrite (rel_element D D' n R), tag_sim.
  Qed.
  Lemma write_sim : write_dom W D' = write_dom W D.
  Proof.
    unfold write_dom, enough. rewrite (rl_fresh D D' R), (rl_root D D' R), collect_sim.
    destruct (traverse_collect _ _ _); [|reflexivity|reflexivity]. cbn [bind]. apply flat_res_ext. exact edge_sim.
  Qed.
End S.

Lemma written_api W D D' : reachable D -> reachable D' -> akin D D' ->
  (forall n, exists_node D n -> custom_attrs D' n = custom_attrs D n) -> write_dom W D' = write_dom W D.
Proof. intros H H' A C. exact (write_sim W D D' (akin_rel D D' H H' A) C). Qed.
Lemma svg_element_api D D' : reachable D -> reachable D' -> akin D D' -> svg_element D' = svg_element D.
Proof.
  intros H H' A. pose proof (akin_rel D D' H H' A) as R. unfold svg_element, enough, children.
  rewrite (rl_fresh _ _ R), (rl_root _ _ R). destruct (rel_nav _ _ R (droot D)) as (_ & e1 & e2 & _). rewrite e1, e2.
  assert (E : forall fuel it, children_list fuel (lk D') it = children_list fuel (lk D) it).
  { induction fuel as [|f IH]; intros it; [reflexivity|]. cbn [children_list].
    assert (En : children_next (lk D') it = children_next (lk D) it).
    { unfold children_next, children_finished. destruct (c_back it) as [b|]; [|reflexivity].
      destruct (rel_nav _ _ R b) as (_ & _ & _ & e & _). rewrite e. destruct (onid_eqb _ _); [reflexivity|].
      destruct (c_next it) as [x|]; [|reflexivity]. destruct (rel_nav _ _ R x) as (_ & _ & _ & e' & _). now rewrite e'. }
    rewrite En. destruct (children_next (lk D) it) as [[c|] it']; [|reflexivity]. now rewrite IH. }
  rewrite E. destruct (children_list _ _ _) as [l| |]; [|reflexivity|reflexivity]. cbn [bind].
  assert (G : filter_svg D' l = filter_svg D l).
  { induction l as [|n l IH]; [reflexivity|]. cbn [filter_svg]. rewrite (si_tag _ _ _ (rl_all _ _ R n)), IH. reflexivity. }
  now rewrite G.
Qed.
