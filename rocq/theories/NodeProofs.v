(* New nodes, setters, plain edits, svg_element. *)
From Coq Require Import List Bool PeanoNat NArith Lia.
From Verif Require Import Base Ids Links Tree Iter ForestSpec ListFacts TreeProofs ForestFacts IterSpec IterProofs
  Data Attrs Slab SlabProofs NodeApi Doc AttrFacts LinkProofs AttrSpec DocSpec RemoveProofs History InvProofs
  HistoryProofs TidyProofs TreeSpec TreeApi ApiProofs NodeSpec Loops ParserTree.
Import ListNotations.

(* ---- the root field of nodes that do not exist yet *)
Definition root_blank (D : dom) : Prop := forall n, fresh D <= n -> l_root (lk D) n = None.

Lemma remove_links_lk n D F : InvF D F -> forall D', remove_links n D = Ok D' -> lk D' = lk D.
Proof.
  intros I D' H. destruct (remove_links_inv n D F I) as (D1 & E & _ & Hf). rewrite E in H. injection H as <-. apply Hf.
Qed.

Lemma detach_root n L F L' : Rep L F -> detach [] n L = Ok L' -> forall m, l_root L' m = l_root L m.
Proof.
  intros R H. pose proof (detach_refines [] n L F R) as Hr. destruct (_ || _); [congruence|].
  destruct Hr as (L1 & E & _ & Hl). rewrite H in E. now injection E as <-.
Qed.

Lemma remove_finish_root n D F D' : InvF D F -> remove_finish n D = Ok D' -> forall m, l_root (lk D') m = l_root (lk D) m.
Proof.
  intros I H. unfold remove_finish in H. ok_bind H L E.
  pose proof (detach_root n _ F L (iv_rep D F I) E) as Hl. intros m. rewrite <- Hl. clear E.
  destruct (storage_key (with_lk L D) n); [|now injection H as <-]. ok_bind H r E. now injection H as <-.
Qed.

Lemma remove_rec_root A fuel : forall n D D', Inv A D -> remove_rec fuel n D = Ok D' ->
  forall m, l_root (lk D') m = l_root (lk D) m.
Proof.
  induction fuel as [|fuel IH]; intros n D D' (F & I & HA) H; [easy|]. cbn in H.
  destruct (remove_links_inv n D F I) as (D1 & E1 & I1 & Hf1). rewrite E1 in H. cbn in H.
  ok_bind H D2 E2.
  assert (H2 : Inv A D2 /\ forall m, l_root (lk D2) m = l_root (lk D) m).
  { eapply (for_children_inv lk (fun X => Inv A X /\ forall m, l_root (lk X) m = l_root (lk D) m)); [|split|exact E2].
    - intros c s s' (Hi & Hs1) Hb. destruct (remove_rec_inv A _ c s s' Hi Hb) as (Hi' & _).
      split; [easy|]. intros m. rewrite <- Hs1. now apply (IH c).
    - now exists F.
    - intros m. now rewrite (fr_lk _ _ Hf1). }
  destruct H2 as ((F2 & I2 & _) & Hs). intros m. rewrite <- Hs. now apply (remove_finish_root n D2 F2).
Qed.

Lemma drain_root A f fuel : forall n s s', Inv A (fst s) -> drain_loop fuel f n s = Ok s' ->
  forall m, l_root (lk (fst s')) m = l_root (lk (fst s)) m.
Proof.
  induction fuel as [|fuel IH]; intros n [D k] s' I H; [easy|]. cbn [drain_loop fst snd] in H, I.
  destruct n as [n|]; [|injection H as <-; easy]. intros m.
  destruct (f D n).
  - ok_bind H D1 E. unfold remove_node in E. destruct (remove_rec_inv _ _ _ _ _ I E) as (I1 & _).
    rewrite (IH _ _ _ (I1 : Inv A (fst (D1, S k))) H). cbn [fst]. now rewrite (remove_rec_root A _ _ _ _ I E).
  - ok_bind H s1 E.
    assert (H1 : Inv A (fst s1) /\ l_root (lk (fst s1)) m = l_root (lk D) m).
    { destruct (has_children (lk D) n).
      - split; [apply (drain_loop_inv A f _ _ (D, k) _ I E)|]. apply (IH _ (D, k) _ I E).
      - injection E as <-. easy. }
    destruct H1 as (I1 & S1). rewrite (IH _ _ _ I1 H). cbn [fst]. exact S1.
Qed.

Lemma append_root p n L F L' : Rep L F -> append [] p n L = Ok L' ->
  forall m, m <> n -> l_root L' m = l_root L m.
Proof.
  intros R H. pose proof (append_refines [] p n L F R) as Hr.
  destruct (Nat.eqb_spec p n) as [|Hpn]; [congruence|]. destruct (append_conflict _ _ _ _); [congruence|].
  destruct Hr as (L1 & E1 & R1 & Hl). rewrite H in E1. injection E1 as <-.
  intros m Hm. rewrite Hl. now destruct (Nat.eqb_spec m n).
Qed.
Lemma prepend_root p n L F L' : Rep L F -> prepend [] p n L = Ok L' ->
  forall m, m <> n -> l_root L' m = l_root L m.
Proof.
  intros R H. pose proof (prepend_refines [] p n L F R) as Hr.
  destruct (Nat.eqb_spec p n) as [|Hpn]; [congruence|]. destruct (prepend_conflict _ _ _ _); [congruence|].
  destruct Hr as (L1 & E1 & R1 & Hl). rewrite H in E1. injection E1 as <-.
  intros m Hm. rewrite Hl. now destruct (Nat.eqb_spec m n).
Qed.
Lemma insert_after_root p n L F L' : Rep L F -> insert_after [] p n L = Ok L' ->
  forall m, m <> n -> l_root L' m = l_root L m.
Proof.
  intros R H. pose proof (insert_after_refines [] p n L F R) as Hr.
  destruct (Nat.eqb_spec p n) as [|Hpn]; [congruence|]. destruct (insert_after_conflict _ _ _ _); [congruence|].
  destruct Hr as (L1 & E1 & R1 & Hl). rewrite H in E1. injection E1 as <-.
  intros m Hm. rewrite Hl. now destruct (Nat.eqb_spec m n).
Qed.
Lemma insert_before_root p n L F L' : Rep L F -> insert_before [] p n L = Ok L' ->
  forall m, m <> n -> l_root L' m = l_root L m.
Proof.
  intros R H. pose proof (insert_before_refines [] p n L F R) as Hr.
  destruct (Nat.eqb_spec p n) as [|Hpn]; [congruence|]. destruct (insert_before_conflict _ _ _ _); [congruence|].
  destruct Hr as (L1 & E1 & R1 & Hl). rewrite H in E1. injection E1 as <-.
  intros m Hm. rewrite Hl. now destruct (Nat.eqb_spec m n).
Qed.

Lemma deep_root fuel : forall p n D D', Inv False D -> root_blank D -> p < fresh D -> make_deep_copy fuel p n D = Ok D' ->
  root_blank D'.
Proof.
  induction fuel as [|fuel IH]; intros p n D D' I T Hp H; [easy|]. cbn [make_deep_copy] in H.
  assert (HH : Inv False D' /\ root_blank D' /\ fresh D <= fresh D'); [|tauto].
  eapply (for_children_inv lk (fun X => Inv False X /\ root_blank X /\ fresh D <= fresh X)); [|split;[exact I|split;[exact T|apply le_n]]|exact H].
  intros c s s' ((F & Is & HA) & Ts & Hle) Hb. cbv beta in Hb.
  ok_bind Hb r E. destruct (copy_node_inv c s F r Is E) as (Hn & I1 & Hl & Hf & Hr).
  ok_bind Hb L' E2.
  assert (I2 : InvF (with_lk L' (snd r)) (f_append p (fst r) F)).
  { apply append_inv; [easy|lia|lia|easy]. }
  assert (I3 : Inv False (with_lk L' (snd r))) by now exists (f_append p (fst r) F).
  assert (T2 : root_blank (with_lk L' (snd r))).
  { intros m Hm. cbn [with_lk lk fresh] in *. rewrite (append_root p (fst r) _ F L' (iv_rep _ _ I1) E2) by lia.
    rewrite Hl. apply Ts. lia. }
  destruct (has_children _ c).
  - assert (Hlt : fst r < fresh (with_lk L' (snd r))) by (cbn; lia).
    assert (Hlp : p < fresh s) by lia.
    pose proof (deep_copy_inv False _ _ _ _ _ I3 Hlt Hb) as (I4 & Hle4 & _). cbn in Hle4.
    apply IH in Hb; [|easy|exact T2|cbn; lia]. split; [easy|]. split; [easy|lia].
  - injection Hb as <-. split; [easy|]. split; [exact T2|cbn; lia].
Qed.

Lemma step_root_blank o D D' : Inv False D -> root_blank D -> legal o D -> step o D = Ok D' -> root_blank D'.
Proof.
  intros I T (Hn & Hp) H. pose proof I as (F & IF & _). unfold exists_node in Hn.
  assert (Hsame : forall X, lk X = lk D -> fresh D <= fresh X -> root_blank X).
  { intros X El Ef m Hm. rewrite El. apply T. lia. }
  assert (Hl : forall L' n, n < fresh D -> (forall m, m <> n -> l_root L' m = l_root (lk D) m) -> root_blank (with_lk L' D)).
  { intros L' n Hlt Hm m Hf. cbn in *. rewrite Hm by lia. now apply T. }
  destruct o; cbn [step handles] in *.
  - ok_bind H r E. injection H as <-. apply (create_element_inv D F) in E; [|easy]. apply Hsame; [tauto|lia].
  - ok_bind H r E. injection H as <-. apply (create_node_inv D F) in E; [|easy]. apply Hsame; [tauto|lia].
  - intros m Hm. rewrite (remove_rec_root False _ _ _ _ I H). apply T.
    destruct (remove_rec_inv False _ _ _ _ I H) as (_ & E & _). lia.
  - ok_bind H r E. injection H as <-. unfold drain in E. intros m Hm.
    rewrite (drain_root False f _ _ (D, 0) r I E). apply T.
    destruct (drain_loop_inv False f _ _ (D, 0) r I E) as (_ & Es & _). cbn in Es. lia.
  - ok_bind H r E. injection H as <-. apply (copy_node_inv n D F) in E; [|easy]. apply Hsame; [tauto|lia].
  - ok_bind H r E. injection H as <-. unfold copy_node_deep in E. ok_bind E r1 E1. ok_bind E D2 E2.
    injection E as <-. cbn [snd]. destruct (copy_node_inv n D F r1 IF E1) as (Hf & I1 & Hlk & Hs & Hr).
    assert (I1' : Inv False (snd r1)) by now exists F.
    assert (Hlt : fst r1 < fresh (snd r1)) by lia.
    apply (deep_root _ _ _ _ _ I1' (Hsame _ Hlk ltac:(lia)) Hlt E2).
  - unfold on_links in H. ok_bind H L' E. injection H as <-. intros m Hm. cbn in *.
    rewrite (detach_root n _ F L' (iv_rep D F IF) E). now apply T.
  - unfold on_links in H. ok_bind H L' E. injection H as <-. apply (Hl L' n); [apply Hn; now right; left|].
    now apply (append_root p n _ F L' (iv_rep D F IF)).
  - unfold on_links in H. ok_bind H L' E. injection H as <-. apply (Hl L' n); [apply Hn; now right; left|].
    now apply (prepend_root p n _ F L' (iv_rep D F IF)).
  - unfold on_links in H. ok_bind H L' E. injection H as <-. apply (Hl L' n); [apply Hn; now right; left|].
    now apply (insert_after_root a n _ F L' (iv_rep D F IF)).
  - unfold on_links in H. ok_bind H L' E. injection H as <-. apply (Hl L' n); [apply Hn; now right; left|].
    now apply (insert_before_root a n _ F L' (iv_rep D F IF)).
  - unfold set_text in H. destruct (is_element D n); [easy|]. injection H as <-. now apply Hsame.
  - injection H as <-. now apply Hsame.
  - unfold set_id in H. destruct (is_element D n); [|easy]. injection H as <-. now apply Hsame.
  - unfold set_tag_name in H. destruct (is_element D n); [|easy]. cbn in H.
    destruct (empty_tag t); [easy|]. injection H as <-. now apply Hsame.
  - apply (set_attribute_inv D F) in H; [|easy]. destruct H as (_ & []). apply Hsame; [easy|lia].
  - ok_bind H r E. injection H as <-. apply (set_checked_inv D F) in E; [|easy]. destruct E as (_ & []).
    apply Hsame; [easy|lia].
  - unfold set_attribute_if_none in H. destruct (negb _).
    + apply (set_attribute_inv D F) in H; [|easy]. destruct H as (_ & []). apply Hsame; [easy|lia].
    + injection H as <-. easy.
  - destruct (remove_attribute_inv D F n name IF) as (D1 & E & I1 & Hf). rewrite E in H. injection H as <-.
    destruct Hf. apply Hsame; [easy|lia].
  - injection H as <-. now apply Hsame.
Qed.

Lemma reachable_root_blank D : reachable D -> root_blank D.
Proof.
  induction 1 as [D H|D o D' H IH Hl Hs].
  - unfold new_document, alloc in H. cbn in H. injection H as <-. now intros n _.
  - apply (step_root_blank o D D'); try easy. now apply reachable_inv.
Qed.

(* ---- new nodes *)
Lemma alloc_new D ty t s k D' n : reachable D -> n = fresh D -> lk D' = lk D -> fresh D' = S (fresh D) -> droot D' = droot D ->
  (forall m, dt D' m = if Nat.eqb m (fresh D) then set_key (Some k) (new_data ty t s) else dt D m) ->
  new_node n D D' /\ node_type D' n = ty /\ tag_name D' n = t /\ text_of D' n = s.
Proof.
  intros H -> El Ef Er Hd. destruct (reachable_inv D H) as (F & I & _).
  destruct (iv_iso D F I (fresh D) (le_n _)) as (J1 & J2 & J3). pose proof (iv_rep D F I) as R.
  assert (Hn : dt D' (fresh D) = set_key (Some k) (new_data ty t s)) by (rewrite Hd; now rewrite Nat.eqb_refl).
  split; [|unfold node_type, tag_name, text_of; now rewrite Hn]. split.
  - unfold exists_node. lia.
  - intros m. unfold exists_node. lia.
  - unfold is_detached, storage_key. now rewrite Hn.
  - unfold id_of. now rewrite Hn.
  - unfold attributes. now rewrite Hn.
  - unfold linked_nodes. now rewrite Hn.
  - rewrite El. unfold parent. now rewrite (r_parent _ _ R).
  - rewrite El. unfold first_child. now rewrite (r_first _ _ R), J3.
  - rewrite El. unfold last_child. now rewrite (r_last _ _ R), J3.
  - rewrite El. unfold next_sibling. rewrite (r_next _ _ R), J2. cbn. now rewrite Nat.eqb_refl.
  - rewrite El. unfold previous_sibling. rewrite (r_prev _ _ R), J2. unfold pred_in. cbn. now rewrite Nat.eqb_refl.
  - rewrite El. unfold root_of. rewrite (reachable_root_blank D H (fresh D) (le_n _)). reflexivity.
  - split; [easy|easy|]. intros m Hm.
    assert (E : dt D' m = dt D m) by (rewrite Hd; now destruct (Nat.eqb_spec m (fresh D))).
    split; unfold node_type, tag_name, id_of, text_of, attributes, linked_nodes, is_detached, storage_key; now rewrite E.
Qed.

Lemma create_element_api D t : reachable D ->
  (t = QName [] -> create_element t D = Panic PAssert) /\
  (t <> QName [] -> exists n D', create_element t D = Ok (n, D') /\ new_node n D D' /\
     node_type D' n = NElement /\ tag_name D' n = t /\ text_of D' n = []).
Proof.
  intros H. split; [now intros ->|]. intros Ht. destruct (reachable_inv D H) as (F & I & _).
  assert (Et : empty_tag t = false) by (destruct t as [|[]]; easy).
  destruct (alloc_inv D F (new_data NElement t []) I) as (k & D' & E & I' & H1 & H2 & H3 & H4); try easy.
  exists (fresh D), D'. unfold create_element. rewrite Et. split; [easy|].
  apply (alloc_new D NElement t [] k D' (fresh D)); easy.
Qed.

Lemma create_node_api D ty s : reachable D ->
  (ty = NElement \/ ty = NRoot -> create_node ty s D = Panic PAssert) /\
  (ty <> NElement -> ty <> NRoot -> exists n D', create_node ty s D = Ok (n, D') /\ new_node n D D' /\
     node_type D' n = ty /\ tag_name D' n = QName [] /\ text_of D' n = s).
Proof.
  intros H. split; [now intros [->| ->]|]. intros H1 H2. destruct (reachable_inv D H) as (F & I & _).
  destruct (alloc_inv D F (new_data ty (QName []) s) I) as (k & D' & E & I' & J1 & J2 & J3 & J4); try easy.
  exists (fresh D), D'. unfold create_node.
  replace (ntype_eqb ty NElement || ntype_eqb ty NRoot) with false by now destruct ty. split; [easy|].
  apply (alloc_new D ty (QName []) s k D' (fresh D)); easy.
Qed.

(* ---- setters *)
Lemma modify_only n g D : only_node n D (modify n g D) /\ same_count D (modify n g D).
Proof.
  split; [|easy]. split; [easy|easy|]. intros m Hm.
  assert (E : dt (modify n g D) m = dt D m) by (unfold modify; cbn; rewrite upd_eq; now destruct (Nat.eqb_spec m n)).
  split; unfold node_type, tag_name, id_of, text_of, attributes, linked_nodes, is_detached, storage_key; now rewrite E.
Qed.
Lemma modify_at n g D : dt (modify n g D) n = g (dt D n).
Proof. unfold modify. cbn. now rewrite upd_eq, Nat.eqb_refl. Qed.

(* ---- svg_element *)
Lemma root_children D F : InvF D F ->
  children_list (enough D) (lk D) (children (lk D) (droot D)) = Ok (children_of F (droot D)).
Proof.
  intros I. apply children_list_eq; [apply I|].
  pose proof (r_wf _ _ (iv_rep D F I)) as W. unfold enough.
  assert (length (children_of F (droot D)) <= fresh D); [|lia].
  rewrite <- (seq_length (fresh D) 0). apply NoDup_incl_length; [now apply children_nodup|].
  intros x Hx. apply in_seq. split; [lia|]. apply (wf_child F W) in Hx. apply (iso_no_parent D F x _ I) in Hx. apply Hx.
Qed.

Lemma filter_svg_in D l : forall e n, In (e, n) (filter_svg D l) <-> In n l /\ tag_name D n = QId e.
Proof.
  induction l as [|x l IH]; intros e n; cbn; [tauto|]. destruct (tag_name D x) as [id|s] eqn:E; cbn; rewrite IH.
  - split; [intros [[= -> ->]|H]|intros [[->|H] H2]]; try tauto. rewrite E in H2. injection H2 as ->. now left.
  - split; [tauto|]. intros [[->|H] H2]; [congruence|tauto].
Qed.

Lemma find_svg D l :
  match option_map snd (find (fun p => eid_eqb (fst p) E_Svg) (filter_svg D l)) with
  | Some n => exists pre post, l = pre ++ n :: post /\ tag_name D n = QId E_Svg /\
                forall x, In x pre -> tag_name D x <> QId E_Svg
  | None => forall x, In x l -> tag_name D x <> QId E_Svg
  end.
Proof.
  induction l as [|x l IH]; [easy|]. cbn [filter_svg].
  assert (Hskip : tag_name D x <> QId E_Svg ->
     match option_map snd (find (fun p => eid_eqb (fst p) E_Svg) (filter_svg D l)) with
     | Some n => exists pre post, x :: l = pre ++ n :: post /\ tag_name D n = QId E_Svg /\
                  forall y, In y pre -> tag_name D y <> QId E_Svg
     | None => forall y, In y (x :: l) -> tag_name D y <> QId E_Svg
     end).
  { intros Hx. destruct (option_map snd _) as [n|].
    - destruct IH as (pre & post & -> & H1 & H2). exists (x :: pre), post. split; [easy|]. split; [easy|].
      intros y [<-|Hy]; auto.
    - intros y [<-|Hy]; auto. }
  destruct (tag_name D x) as [id|s] eqn:E; [|apply Hskip; congruence].
  cbn [find fst]. destruct (eid_eqb id E_Svg) eqn:Ei.
  - apply eid_eqb_eq in Ei. subst id. cbn. exists [], l. now repeat split.
  - apply Hskip. intros [= ->]. now rewrite (proj2 (eid_eqb_eq E_Svg E_Svg) eq_refl) in Ei.
Qed.

Lemma split_unique {A} (Q : A -> Prop) pre n post pre' n' post' :
  pre ++ n :: post = pre' ++ n' :: post' -> (forall x, In x pre -> ~ Q x) -> (forall x, In x pre' -> ~ Q x) ->
  Q n -> Q n' -> pre = pre' /\ n = n'.
Proof.
  revert pre'. induction pre as [|x pre IH]; intros [|y pre'] E H1 H2 Hn Hn'; cbn in E.
  - injection E as -> _. easy.
  - injection E as -> _. exfalso. apply (H2 y); [now left|easy].
  - injection E as -> _. exfalso. apply (H1 n'); [now left|easy].
  - injection E as -> E. destruct (IH pre' E) as (-> & ->); try easy; intros z Hz; [apply H1|apply H2]; now right.
Qed.

Lemma svg_tag_element D F n : InvF D F -> tag_name D n = QId E_Svg -> is_element D n = true.
Proof.
  intros I H. destruct (is_element D n) eqn:E; [easy|]. destruct (iv_plain D F I n E) as (_ & H1 & _). congruence.
Qed.

Lemma svg_element_api D F : reachable D -> shows (lk D) F ->
  (forall n, svg_element D = Ok (Some n) <->
     exists pre post, children_of F (droot D) = pre ++ n :: post /\ is_element D n = true /\ tag_name D n = QId E_Svg /\
       forall x, In x pre -> tag_name D x <> QId E_Svg) /\
  (svg_element D = Ok None <-> forall x, In x (children_of F (droot D)) -> tag_name D x <> QId E_Svg).
Proof.
  intros H S. pose proof (shows_inv D F H S) as I. unfold svg_element. rewrite (root_children D F I). cbn [bind].
  pose proof (find_svg D (children_of F (droot D))) as Hf.
  destruct (option_map snd _) as [m|].
  - destruct Hf as (pre & post & E & H1 & H2). split.
    + intros n. split.
      * intros [= <-]. exists pre, post. repeat split; try easy. now apply (svg_tag_element D F).
      * intros (pre' & post' & E' & _ & H3 & H4). rewrite E in E'.
        destruct (split_unique (fun x => tag_name D x = QId E_Svg) _ _ _ _ _ _ E' H2 H4 H1 H3) as (_ & ->). easy.
    + split; [easy|]. intros H3. exfalso. apply (H3 m); [rewrite E; apply in_elt|easy].
  - split; [|easy]. intros n. split; [easy|]. intros (pre & post & E & _ & H3 & _). exfalso.
    apply (Hf n); [rewrite E; apply in_elt|easy].
Qed.

(* ---- plain edits *)
Lemma attrs_edit_split l name a pre old post : l = pre ++ old :: post -> a_name old = name ->
  (forall x, In x pre -> a_name x <> name) -> attrs_edit l name a = pre ++ a :: post.
Proof.
  intros -> Ho. induction pre as [|x pre IH]; intros Hp; cbn [app attrs_edit].
  - now rewrite Ho, aname_eqb_refl.
  - destruct (aname_eqb_spec (a_name x) name) as [E|E]; [exfalso; apply (Hp x); [now left|easy]|].
    rewrite IH; [easy|]. intros y Hy. apply Hp. now right.
Qed.
Lemma attrs_edit_none l name a : (forall x, In x l -> a_name x <> name) -> attrs_edit l name a = l.
Proof.
  induction l as [|x l IH]; intros H; [easy|]. cbn. destruct (aname_eqb_spec (a_name x) name) as [E|E].
  - exfalso. apply (H x); [now left|easy].
  - rewrite IH; [easy|]. intros y Hy. apply H. now right.
Qed.

Lemma edit_api D n name a : reachable D -> exists_node D n -> plain_edit (OAttributeMut n name a) D ->
  let D' := attribute_mut n name a D in
  reachable D' /\ only_node n D D' /\ linked_nodes D' n = linked_nodes D n /\
  (forall pre old post, attributes D n = pre ++ old :: post -> a_name old = name ->
     attributes D' n = pre ++ a :: post) /\
  (has_attribute D n name = false -> attributes D' n = attributes D n).
Proof.
  intros H Hn Hp D'. destruct (reachable_inv D H) as (F & I & _). split; [|split; [|split; [|split]]].
  - eapply (reach_step D (OAttributeMut n name a)); [easy| |reflexivity]. split; [|exact Hp].
    intros m [<-|[]]. exact Hn.
  - apply modify_only.
  - apply edit_linked.
  - intros pre old post E Ho. unfold D'. rewrite edit_attrs, Nat.eqb_refl. apply (attrs_edit_split _ _ _ _ old); [easy|easy|].
    intros x Hx Ex. pose proof (li_uniq D (iv_link D F I) n) as Hd. rewrite E, map_app in Hd. cbn in Hd.
    apply NoDup_remove_2 in Hd. apply Hd. apply in_app_iff. left. rewrite Ho, <- Ex. now apply in_map.
  - intros Ha. unfold D'. rewrite edit_attrs, Nat.eqb_refl. apply attrs_edit_none.
    intros x Hx Ex. apply contains_false in Ha. apply Ha. rewrite <- Ex. now apply in_map.
Qed.

(* ---- setters *)
Lemma modify_text n s D : let D' := modify n (set_text_field s) D in
  only_node n D D' /\ same_count D D' /\ text_of D' n = s /\ same_but_text n D D'.
Proof.
  intros D'. destruct (modify_only n (set_text_field s) D) as (H1 & H2). split; [easy|]. split; [easy|].
  pose proof (modify_at n (set_text_field s) D) as E. unfold D', same_but_text.
  unfold node_type, tag_name, id_of, text_of, attributes, linked_nodes, is_detached, storage_key. now rewrite E.
Qed.
Lemma text_mut_api D n s : let D' := text_mut n s D in
  only_node n D D' /\ same_count D D' /\ text_of D' n = s /\ same_but_text n D D'.
Proof. exact (modify_text n s D). Qed.
Lemma set_text_api D n s :
  (is_element D n = true -> set_text n s D = Panic PDebugAssert) /\
  (is_element D n = false -> exists D', set_text n s D = Ok D' /\ only_node n D D' /\ same_count D D' /\
     text_of D' n = s /\ same_but_text n D D').
Proof.
  unfold set_text. split; intros ->; [easy|]. eexists. split; [reflexivity|]. apply modify_text.
Qed.
Lemma set_id_api D n s :
  (is_element D n = false -> set_id n s D = Panic PDebugAssert) /\
  (is_element D n = true -> exists D', set_id n s D = Ok D' /\ only_node n D D' /\ same_count D D' /\
     id_of D' n = s /\ same_but_id n D D').
Proof.
  unfold set_id. split; intros ->; [easy|]. eexists. split; [reflexivity|].
  destruct (modify_only n (set_id_field s) D) as (H1 & H2). split; [easy|]. split; [easy|].
  pose proof (modify_at n (set_id_field s) D) as E. unfold same_but_id.
  unfold node_type, tag_name, id_of, text_of, attributes, linked_nodes, is_detached, storage_key. now rewrite E.
Qed.
Lemma set_tag_api D n t :
  (is_element D n = false \/ t = QName [] -> exists p, set_tag_name n t D = Panic p) /\
  (is_element D n = true -> t <> QName [] -> exists D', set_tag_name n t D = Ok D' /\ only_node n D D' /\ same_count D D' /\
     tag_name D' n = t /\ same_but_tag n D D').
Proof.
  unfold set_tag_name. split.
  - intros [->| ->]; [cbn; eauto|]. destruct (negb _); cbn; eauto.
  - intros -> Ht. cbn [negb]. replace (empty_tag t) with false by (destruct t as [|[]]; easy).
    eexists. split; [reflexivity|].
    destruct (modify_only n (set_tag t) D) as (H1 & H2). split; [easy|]. split; [easy|].
    pose proof (modify_at n (set_tag t) D) as E. unfold same_but_tag.
    unfold node_type, tag_name, id_of, text_of, attributes, linked_nodes, is_detached, storage_key. now rewrite E.
Qed.

Lemma edit_plain_api D n name a : reachable D -> exists_node D n ->
  link_target (a_value a) = None ->
  (forall old, In old (attributes D n) -> a_name old = name -> link_target (a_value old) = None) ->
  (a_name a = name \/ has_attribute D n (a_name a) = false) ->
  let D' := attribute_mut n name a D in
  reachable D' /\ only_node n D D' /\ linked_nodes D' n = linked_nodes D n /\
  (forall pre old post, attributes D n = pre ++ old :: post -> a_name old = name ->
     attributes D' n = pre ++ a :: post) /\
  (has_attribute D n name = false -> attributes D' n = attributes D n).
Proof.
  intros H Hn Ha Ho Hm. apply edit_api; [easy|easy|]. split; [easy|]. split; [|easy].
  intros old E. apply get_name in E. now apply Ho.
Qed.

(* ---- in-place edits: when links and users stay in step *)
Lemma edit_place D n name a pre old post : reachable D ->
  attributes D n = pre ++ old :: post -> a_name old = name ->
  attributes (attribute_mut n name a D) n = pre ++ a :: post.
Proof.
  intros H E Ho. destruct (reachable_inv D H) as (F & I & _).
  rewrite edit_attrs, Nat.eqb_refl. apply (attrs_edit_split _ _ _ _ old); [easy|easy|].
  intros x Hx Ex. pose proof (li_uniq D (iv_link D F I) n) as Hd. rewrite E, map_app in Hd. cbn in Hd.
  apply NoDup_remove_2 in Hd. apply Hd. apply in_app_iff. left. rewrite Ho, <- Ex. now apply in_map.
Qed.
Definition aims (b : nid) (x : attr) : bool :=
  match link_target (a_value x) with Some t => Nat.eqb t b | None => false end.
Lemma aims_same a old : (forall b, aims b a = aims b old) -> link_target (a_value a) = link_target (a_value old).
Proof.
  unfold aims. intros H. destruct (link_target (a_value a)) as [t|] eqn:E.
  - specialize (H t). rewrite Nat.eqb_refl in H. destruct (link_target (a_value old)) as [u|]; [|easy].
    symmetry in H. apply Nat.eqb_eq in H. now subst.
  - destruct (link_target (a_value old)) as [u|]; [|easy]. specialize (H u). rewrite Nat.eqb_refl in H. easy.
Qed.
Lemma edit_exact D n name a pre old post : reachable D ->
  attributes D n = pre ++ old :: post -> a_name old = name ->
  let D' := attribute_mut n name a D in
  only_node n D D' /\ linked_nodes D' n = linked_nodes D n /\ attributes D' n = pre ++ a :: post /\
  ((forall x b, times x (linked_nodes D' b) = uses D' x b) <-> link_target (a_value a) = link_target (a_value old)) /\
  (NoDup (map a_name (attributes D' n)) <-> a_name a = name \/ has_attribute D n (a_name a) = false).
Proof.
  intros H E Ho D'. pose proof (edit_place D n name a pre old post H E Ho) as E'. fold D' in E'.
  destruct (reachable_inv D H) as (F & I & _).
  assert (Hl : forall b, linked_nodes D' b = linked_nodes D b) by (intros b; apply edit_linked).
  split; [apply modify_only|]. split; [apply Hl|]. split; [exact E'|]. split.
  - assert (Hu : forall b, uses D' n b + (if aims b old then 1 else 0) = uses D n b + (if aims b a then 1 else 0)).
    { intros b. unfold uses. fold (aims b). rewrite E, E', !filter_app, !app_length. cbn [filter].
      destruct (aims b a), (aims b old); cbn [length]; lia. }
    assert (Hx : forall x b, x <> n -> uses D' x b = uses D x b).
    { intros x b Hx. unfold uses, D'. rewrite edit_attrs. apply Nat.eqb_neq in Hx. now rewrite Hx. }
    split.
    + intros Hm. apply aims_same. intros b. specialize (Hm n b). rewrite Hl in Hm.
      pose proof (li_sym D (iv_link D F I) n b) as Hs.
      change (times n (linked_nodes D b) = uses D n b) in Hs. specialize (Hu b).
      destruct (aims b a), (aims b old); try easy; lia.
    + intros Ht x b. rewrite Hl. pose proof (li_sym D (iv_link D F I) x b) as Hs.
      change (times x (linked_nodes D b) = uses D x b) in Hs. rewrite Hs.
      destruct (Nat.eq_dec x n) as [->|Hne]; [|now rewrite Hx].
      specialize (Hu b). unfold aims in Hu. rewrite Ht in Hu. lia.
  - rewrite E'. pose proof (li_uniq D (iv_link D F I) n) as Hd. rewrite E, map_app in Hd. cbn [map] in Hd.
    rewrite map_app. cbn [map]. pose proof (NoDup_remove_1 _ _ _ Hd) as H1. pose proof (NoDup_remove_2 _ _ _ Hd) as H2. split.
    + intros Hy. apply NoDup_remove_2 in Hy. destruct (has_attribute D n (a_name a)) eqn:Eh; [|now right]. left.
      apply contains_iff in Eh. rewrite E, map_app in Eh. cbn [map] in Eh. apply in_app_iff in Eh.
      destruct Eh as [Eh|[Eh|Eh]]; [|congruence|]; exfalso; apply Hy, in_app_iff; tauto.
    + intros [Eh|Eh].
      * now rewrite Eh, <- Ho.
      * apply contains_false in Eh. rewrite E, map_app in Eh. cbn [map] in Eh.
        apply NoDup_Add with (a := a_name a) (l := map a_name pre ++ map a_name post); [apply Add_app|].
        split; [easy|]. intros Hi. apply Eh. apply in_app_iff in Hi. apply in_app_iff. cbn. tauto.
Qed.
