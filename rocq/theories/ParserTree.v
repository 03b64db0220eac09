(* The parser builds the SVG part of the XML tree below the root node. *)
From Coq Require Import String List Bool PeanoNat NArith Lia.
From Verif Require Import Base Ids Links Tree Iter ForestSpec TreeSpec Data Attrs Slab NodeApi AttrSpec Doc History DocSpec
  ListFacts TreeProofs ForestFacts IterSpec IterProofs AttrFacts LinkProofs SlabProofs PruneFacts RemoveProofs InvProofs
  HistoryProofs DrainProofs CopyProofs TreeApi ApiProofs DocApi TidyProofs RootProofs Names NamesProofs Types Text TextSpec Loops
  TextProofs TextApi Parser ParserSpec ParserProofs.
Import ListNotations.
Open Scope nat_scope.
Open Scope list_scope.

(* induction on XML trees *)
Fixpoint xml_ind' (Q : xml -> Prop) (He : forall ns s a ks, Forall Q ks -> Q (XmlElement ns s a ks))
  (Ht : forall s, Q (XmlText s)) (Hc : forall s, Q (XmlComment s)) (Ho : Q XmlOther) (x : xml) : Q x :=
  match x with
  | XmlElement ns s a ks =>
      He ns s a ks ((fix go l := match l return Forall Q l with
                                 | [] => Forall_nil Q
                                 | c :: t => Forall_cons c (xml_ind' Q He Ht Hc Ho c) (go t)
                                 end) ks)
  | XmlText s => Ht s
  | XmlComment s => Hc s
  | XmlOther => Ho
  end.

(* ---- documents under construction *)
Record started (D : dom) (F : forest) : Prop := {
  st_inv   : InvF D F;
  st_acyc  : acyclic F;
  st_plain : unlinked_dom D;
  st_alive : forall m, m < fresh D -> storage_key D m <> None;
  st_above : forall m q, parent_of F m = Some q -> is_element D q = true \/ q = droot D
}.

Record grows (P : values) (p : nid) (D : dom) (F : forest) (D' : dom) (F' : forest) (l : list snode) (ts : list tree)
  (new : list link) : Prop := {
  gw_started : started D' F';
  gw_root    : droot D' = droot D;
  gw_fresh   : fresh D <= fresh D';
  gw_data    : forall m, m < fresh D -> dt D' m = dt D m;
  gw_kids    : children_of F' p = children_of F p ++ map t_node ts;
  gw_below   : grown_below p (fresh D) F F';
  gw_trees   : Forall (tree_at F') ts;
  gw_new     : forall x, In x (flat_map preorder ts) <-> fresh D <= x < fresh D';
  gw_built   : built P D' l ts new;
  gw_calls   : calls orderly D D';
  gw_order   : flat_map preorder ts = seq (fresh D) (fresh D' - fresh D);
  gw_words   : forall x, In x (flat_map preorder ts) -> is_element D' x = true -> text_of D' x = []
}.

Lemma built_data P D D' l ts ls : built P D l ts ls -> (forall x, In x (flat_map preorder ts) -> dt D' x = dt D x) ->
  built P D' l ts ls.
Proof.
  induction 1 as [|e id ds ks l n ts us l1 l2 H1 H2 H3 H4 Hk IHk Hl IHl|s l n us l2 H1 H2 Hl IHl|s l n us l2 H1 H2 Hl IHl]; intros Hd.
  - constructor.
  - assert (En : dt D' n = dt D n) by (apply Hd; now left). constructor.
    + unfold node_type in *. now rewrite En.
    + unfold tag_name in *. now rewrite En.
    + unfold id_of in *. now rewrite En.
    + unfold attributes in *. now rewrite En.
    + apply IHk. intros x Hx. apply Hd. right. apply in_app_iff. now left.
    + apply IHl. intros x Hx. apply Hd. right. apply in_app_iff. now right.
  - assert (En : dt D' n = dt D n) by (apply Hd; now left). constructor.
    + unfold node_type in *. now rewrite En.
    + unfold text_of in *. now rewrite En.
    + apply IHl. intros x Hx. apply Hd. now right.
  - assert (En : dt D' n = dt D n) by (apply Hd; now left). constructor.
    + unfold node_type in *. now rewrite En.
    + unfold text_of in *. now rewrite En.
    + apply IHl. intros x Hx. apply Hd. now right.
Qed.

Lemma built_app P D l ts ls l' ts' ls' : built P D l ts ls -> built P D l' ts' ls' -> built P D (l ++ l') (ts ++ ts') (ls ++ ls').
Proof.
  induction 1; intros H'; cbn [app]; rewrite <- ?app_assoc; try (constructor; auto); auto.
Qed.

Lemma grows_refl P p D F : started D F -> grows P p D F D F [] [] [].
Proof.
  intros S. split; try easy.
  - cbn. now rewrite app_nil_r.
  - intros x. cbn. split; [easy|lia].
  - constructor.
  - constructor.
  - now rewrite Nat.sub_diag.
Qed.

Lemma grows_trans P p D1 F1 D2 F2 D3 F3 l1 l2 ts1 ts2 n1 n2 : p < fresh D1 ->
  grows P p D1 F1 D2 F2 l1 ts1 n1 -> grows P p D2 F2 D3 F3 l2 ts2 n2 ->
  grows P p D1 F1 D3 F3 (l1 ++ l2) (ts1 ++ ts2) (n1 ++ n2).
Proof.
  intros Hp G1 G2. pose proof (gw_fresh _ _ _ _ _ _ _ _ _ G1) as Hf1. pose proof (gw_fresh _ _ _ _ _ _ _ _ _ G2) as Hf2.
  assert (Hn1 : forall x, In x (flat_map preorder ts1) -> x < fresh D2 /\ x <> p).
  { intros x Hx. pose proof (proj1 (gw_new _ _ _ _ _ _ _ _ _ G1 x) Hx). unfold nid in *. lia. }
  split.
  - apply G2.
  - rewrite (gw_root _ _ _ _ _ _ _ _ _ G2). apply G1.
  - lia.
  - intros m Hm. rewrite (gw_data _ _ _ _ _ _ _ _ _ G2) by lia. now apply G1.
  - rewrite (gw_kids _ _ _ _ _ _ _ _ _ G2), (gw_kids _ _ _ _ _ _ _ _ _ G1), map_app, app_assoc. easy.
  - pose proof (gw_below _ _ _ _ _ _ _ _ _ G1) as B1. pose proof (gw_below _ _ _ _ _ _ _ _ _ G2) as B2. split.
    + intros x Hx. rewrite (gb_parent _ _ _ _ B2) by lia. now apply B1.
    + intros x Hx Hxp. rewrite (gb_children _ _ _ _ B2) by (lia || easy). now apply B1.
    + intros x Hx Hxp. rewrite (gb_siblings _ _ _ _ B2); [now apply B1|lia|]. now rewrite (gb_parent _ _ _ _ B1).
  - apply Forall_app. split; [|apply G2]. pose proof (gw_trees _ _ _ _ _ _ _ _ _ G1) as T1. rewrite Forall_forall in *.
    intros t Ht. eapply grown_below_tree; [|apply (gw_below _ _ _ _ _ _ _ _ _ G2)|now apply T1].
    intros x Hx. apply Hn1. apply in_flat_map. now exists t.
  - intros x. rewrite flat_map_app, in_app_iff, (gw_new _ _ _ _ _ _ _ _ _ G1 x), (gw_new _ _ _ _ _ _ _ _ _ G2 x). lia.
  - apply built_app; [|apply G2]. eapply built_data; [apply G1|]. intros x Hx. apply G2. now apply Hn1.
  - eapply calls_trans; [apply G1|apply G2].
  - rewrite flat_map_app, (gw_order _ _ _ _ _ _ _ _ _ G1), (gw_order _ _ _ _ _ _ _ _ _ G2).
    replace (fresh D3 - fresh D1) with ((fresh D2 - fresh D1) + (fresh D3 - fresh D2)) by lia. rewrite seq_app. do 2 f_equal. lia.
  - intros x Hx. rewrite flat_map_app, in_app_iff in Hx. destruct Hx as [Hx|Hx]; [|now apply G2].
    unfold is_element, node_type, text_of. rewrite (gw_data _ _ _ _ _ _ _ _ _ G2 x) by now apply Hn1.
    now apply (gw_words _ _ _ _ _ _ _ _ _ G1).
Qed.

(* appending a node made before *)
Lemma append_new P p D F D1 : started D F -> p < fresh D -> (is_element D p = true \/ p = droot D) ->
  InvF D1 F -> unlinked_dom D1 -> lk D1 = lk D -> fresh D1 = S (fresh D) -> droot D1 = droot D ->
  (forall m, m <> fresh D -> dt D1 m = dt D m) -> storage_key D1 (fresh D) <> None -> calls orderly D D1 ->
  exists D2 F2, (forall ls, append_node p (fresh D) (D1, ls) = Ok (D2, ls)) /\ started D2 F2 /\ fresh D2 = S (fresh D) /\
    droot D2 = droot D /\ (forall m, dt D2 m = dt D1 m) /\
    children_of F2 (fresh D) = [] /\ children_of F2 p = children_of F p ++ [fresh D] /\
    grown_below p (fresh D) F F2 /\ calls orderly D D2 /\ (forall l new, built P D1 l [T (fresh D) []] new ->
      (is_element D1 (fresh D) = true -> text_of D1 (fresh D) = []) -> grows P p D F D2 F2 l [T (fresh D) []] new).
Proof.
  intros S Hp Hpe I1 Hu1 Hl1 Hf1 Hr1 Hd1 Hk1 Hc1. set (n := fresh D) in *.
  pose proof (st_inv D F S) as I. pose proof (iv_iso D F I n (le_n _)) as Hiso.
  assert (Hnp : n <> p) by (unfold n, nid in *; lia).
  pose proof (r_wf _ _ (iv_rep D F I)) as W.
  destruct (append_iso_ok (lk D1) F p n (iv_rep D1 F I1) Hiso Hnp (acyclic_parent_neq F p (st_acyc D F S))) as (L2 & E2 & R2).
  destruct (append_iso F p n W Hiso Hnp) as (Hch2 & Hb2).
  exists (with_lk L2 D1), (f_append p n F).
  assert (I2 : InvF (with_lk L2 D1) (f_append p n F)) by (apply append_inv; [easy|unfold nid in *; lia|unfold n; lia|easy]).
  assert (Hkn : children_of (f_append p n F) n = []).
  { rewrite Hch2. destruct (Nat.eqb_spec n p); [easy|]. apply Hiso. }
  assert (Hkp : children_of (f_append p n F) p = children_of F p ++ [n]) by (now rewrite Hch2, Nat.eqb_refl).
  assert (S2 : started (with_lk L2 D1) (f_append p n F)).
  { split.
    - easy.
    - apply acyclic_append; [easy|apply S|]. intros Hanc. apply iso_anc in Hanc; [|easy|easy]. congruence.
    - exact Hu1.
    - intros m Hm. cbn in Hm. rewrite Hf1 in Hm. change (storage_key D1 m <> None).
      destruct (Nat.eq_dec m n) as [->|]; [easy|]. unfold storage_key. rewrite Hd1 by easy. apply (st_alive D F S). unfold n, nid in *. lia.
    - intros m q. rewrite parent_append by easy. change (droot (with_lk L2 D1)) with (droot D1). rewrite Hr1.
      change (is_element (with_lk L2 D1) q) with (is_element D1 q).
      assert (Hel : forall y, y < n -> is_element D1 y = is_element D y).
      { intros y Hy. unfold is_element, node_type. rewrite Hd1; [easy|unfold nid in *; lia]. }
      destruct (Nat.eqb_spec m n) as [->|].
      + intros [= <-]. now rewrite Hel.
      + intros Hq. destruct (st_above D F S m q Hq) as [He|]; [|now right]. left. rewrite Hel; [easy|].
        now apply (element_exists D F q). }
  assert (C2 : calls orderly D (with_lk L2 D1)).
  { apply (calls_step orderly D (OAppend p n) D1); [exact Hc1| | | | |].
    - split; [|exact Logic.I]. intros m [<-|[<-|[]]]; unfold exists_node; rewrite Hf1; [unfold nid in *; lia|unfold n; lia].
    - intros Hab. apply (above_anc _ F) in Hab; [|apply I1]. apply iso_anc in Hab; [|easy|easy]. congruence.
    - split.
      + unfold first_child. rewrite (r_first _ _ (iv_rep D1 F I1)). destruct Hiso as (_ & _ & ->). easy.
      + rewrite Hr1. pose proof (iv_rlt D F I). unfold n, nid in *. lia.
    - split; [|easy]. intros m [<-|[<-|[]]]; [|easy]. unfold storage_key. rewrite Hd1 by auto. apply (st_alive D F S). easy.
    - unfold step, on_links. now rewrite E2. }
  split; [intros ls; unfold append_node; cbn [fst snd]; rewrite E2; reflexivity|].
  split; [easy|]. split; [easy|]. split; [easy|]. split; [easy|]. split; [easy|]. split; [easy|]. split; [easy|]. split; [easy|].
  intros l new HB Hw. split; try easy.
  - cbn. rewrite Hf1. unfold n. lia.
  - intros m Hm. apply Hd1. unfold n, nid in *. lia.
  - constructor; [|constructor]. constructor; [easy|constructor].
  - intros x. cbn. rewrite Hf1. unfold n, nid in *. split; [intros [<-|[]]; lia|lia].
  - eapply built_data; [exact HB|easy].
  - cbn. rewrite Hf1. fold n. replace (Datatypes.S n - n) with 1 by lia. reflexivity.
  - intros x [<-|[]]. exact Hw.
Qed.

(* texts and comments *)
Lemma leaf_grows P p D F ty s ls : started D F -> p < fresh D -> (is_element D p = true \/ p = droot D) ->
  ty = NText \/ ty = NComment ->
  exists D' F', add_leaf ty s p (D, ls) = Ok (D', ls) /\
    grows P p D F D' F' [match ty with NText => SText s | _ => SComment s end] [T (fresh D) []] [].
Proof.
  intros S Hp Hpe Hty. unfold add_leaf. cbn [fst snd].
  destruct (create_node ty s D) as [r| |] eqn:E.
  2,3: (exfalso; destruct (alloc_inv D F (new_data ty (QName []) s) (st_inv D F S)) as (k & D1 & E1 & _);
        [easy|destruct Hty as [->| ->]; easy|easy|easy|easy|destruct Hty as [->| ->]; easy|easy|];
        unfold create_node in E; replace (ntype_eqb ty NElement || ntype_eqb ty NRoot) with false in E
          by (destruct Hty as [->| ->]; reflexivity); congruence).
  destruct (create_node_inv D F ty s r (st_inv D F S) E) as (Hn & I1 & Hl1 & Hf1 & Hr1 & k & Hd1).
  cbn [bind]. rewrite Hn.
  assert (Hdn : dt (snd r) (fresh D) = set_key (Some k) (new_data ty (QName []) s)) by now rewrite Hd1, Nat.eqb_refl.
  assert (Hdo : forall m, m <> fresh D -> dt (snd r) m = dt D m).
  { intros m Hm. rewrite Hd1. destruct (Nat.eqb_spec m (fresh D)); easy. }
  destruct (append_new P p D F (snd r) S Hp Hpe I1) as (D2 & F2 & E2 & _ & _ & _ & _ & _ & _ & _ & _ & HG); try easy.
  - intros m a. destruct (Nat.eq_dec m (fresh D)) as [->|Hm].
    + unfold attributes. rewrite Hdn. easy.
    + unfold attributes. rewrite Hdo by easy. apply (st_plain D F S).
  - unfold storage_key. now rewrite Hdn.
  - apply (calls_step orderly D (OCreateNode ty s) D); [constructor| | | | |].
    + split; [|exact Logic.I]. intros m [].
    + easy.
    + easy.
    + split; [intros m []|easy].
    + unfold step. rewrite E. reflexivity.
  - exists D2, F2. split; [apply E2|].
    apply HG; [|unfold is_element, node_type; rewrite Hdn; destruct Hty as [->| ->]; discriminate]. destruct Hty as [->| ->]; constructor;
      try (unfold node_type; now rewrite Hdn); try (unfold text_of; now rewrite Hdn); constructor.
Qed.

(* elements, before their content *)
Lemma element_grows P rules top path attrs p D F e ls : started D F -> p < fresh D ->
  (is_element D p = true \/ p = droot D) ->
  exists D' F' , (r <- create_element (QId e) D ;;
    s <- parse_attributes P attrs (fst r) (snd r, ls) ;;
    s <- parse_rules P rules top path (fst r) s ;;
    s <- match plain_attribute (lit "style") attrs with
         | Some v => parse_style_attribute P v (fst r) s
         | None => Ok s end ;;
    append_node p (fst r) s) = Ok (D', ls ++ references P e (fresh D) (declarations P rules top path attrs)) /\
   (r <- create_element (QId e) D ;; Ok (fst r)) = Ok (fresh D) /\
   is_element D' (fresh D) = true /\ tag_id D' (fresh D) = Some e /\ fresh D' = S (fresh D) /\
   children_of F' (fresh D) = [] /\
   grows P p D F D' F' [SElement e (xml_id attrs) (declarations P rules top path attrs) []] [T (fresh D) []]
     (references P e (fresh D) (declarations P rules top path attrs)).
Proof.
  intros S Hp Hpe.
  destruct (create_element (QId e) D) as [r| |] eqn:E.
  2,3: (exfalso; destruct (alloc_inv D F (new_data NElement (QId e) []) (st_inv D F S)) as (k & D1 & E1 & _); try easy;
        unfold create_element in E; cbn [empty_tag] in E; congruence).
  destruct (create_element_inv D F (QId e) r (st_inv D F S) E) as (Hn & I1 & Hl1 & Hf1 & Hr1 & k & Hd1).
  cbn [bind]. rewrite Hn.
  assert (Hdn : dt (snd r) (fresh D) = set_key (Some k) (new_data NElement (QId e) [])) by now rewrite Hd1, Nat.eqb_refl.
  assert (Hdo : forall m, m <> fresh D -> dt (snd r) m = dt D m).
  { intros m Hm. rewrite Hd1. destruct (Nat.eqb_spec m (fresh D)); easy. }
  assert (C1 : calls orderly D (snd r)).
  { apply (calls_step orderly D (OCreateElement (QId e)) D); [constructor| | | | |].
    + split; [|exact Logic.I]. intros m [].
    + easy.
    + easy.
    + split; [intros m []|easy].
    + unfold step. rewrite E. reflexivity. }
  assert (Hst : elem_state (snd r) F (fresh D) e (snd r) [] []).
  { split; try easy.
    - intros m a. destruct (Nat.eq_dec m (fresh D)) as [->|Hm].
      + unfold attributes. rewrite Hdn. easy.
      + unfold attributes. rewrite Hdo by easy. apply (st_plain D F S).
    - unfold node_type. now rewrite Hdn.
    - unfold tag_name. now rewrite Hdn.
    - unfold attributes. now rewrite Hdn.
    - unfold id_of. now rewrite Hdn.
    - unfold storage_key. now rewrite Hdn.
    - constructor.
    - unfold text_of. now rewrite Hdn. }
  destruct (element_decls P (snd r) F (fresh D) e ltac:(rewrite Hf1; lia) rules top path attrs (snd r) ls Hst) as (D1 & E1 & S1).
  destruct S1 as [T1 T2 T3 T4 T5 T6 T7 T8 T9 T10 T11 T12 T13].
  destruct (append_new P p D F D1 S Hp Hpe T1 T2) as (D2 & F2 & E2 & S2 & Hf2 & Hr2 & Hd2 & Hk2 & _ & _ & C2 & HG).
  - congruence.
  - congruence.
  - congruence.
  - intros m Hm. rewrite T6 by easy. now apply Hdo.
  - easy.
  - eapply calls_trans; [exact C1|exact T12].
  - exists D2, F2.
    split.
    { revert E1. destruct (parse_attributes P attrs (fresh D) (snd r, ls)) as [s1| |]; cbn [bind]; [|easy|easy].
      destruct (parse_rules P rules top path (fresh D) s1) as [s2| |]; cbn [bind]; [|easy|easy].
      intros ->. cbn [bind]. apply E2. }
    split; [easy|].
    split; [unfold is_element, node_type in *; now rewrite Hd2, T7|].
    split; [unfold tag_id, tag_name in *; now rewrite Hd2, T8|].
    split; [easy|]. split; [easy|]. apply HG; [|now intros _].
    replace (references P e (fresh D) (declarations P rules top path attrs)) with
      (references P e (fresh D) (declarations P rules top path attrs) ++ [] ++ []) by (cbn [app]; now rewrite app_nil_r).
    constructor; try easy.
    + intros q v. rewrite T9. apply assigned.
    + constructor.
    + constructor.
Qed.

(* the content of an element *)
Lemma content_grows P p n e id ds D F D2 F2 D3 F3 ks ts new0 new : p < fresh D -> n = fresh D -> fresh D2 = S (fresh D) ->
  children_of F2 n = [] ->
  grows P p D F D2 F2 [SElement e id ds []] [T n []] new0 ->
  grows P n D2 F2 D3 F3 ks ts new ->
  grows P p D F D3 F3 [SElement e id ds ks] [T n ts] (new0 ++ new).
Proof.
  intros Hp -> Hf2 Hk2 G1 G2. set (n := fresh D) in *.
  assert (Hn : n < fresh D2) by (unfold n; lia).
  pose proof (gw_fresh _ _ _ _ _ _ _ _ _ G1) as Hf1. pose proof (gw_fresh _ _ _ _ _ _ _ _ _ G2) as Hf3.
  pose proof (gw_below _ _ _ _ _ _ _ _ _ G1) as B1. pose proof (gw_below _ _ _ _ _ _ _ _ _ G2) as B2.
  assert (Hk3 : children_of F3 n = map t_node ts) by (rewrite (gw_kids _ _ _ _ _ _ _ _ _ G2), Hk2; easy).
  split.
  - apply G2.
  - rewrite (gw_root _ _ _ _ _ _ _ _ _ G2). apply G1.
  - lia.
  - intros m Hm. rewrite (gw_data _ _ _ _ _ _ _ _ _ G2) by lia. now apply G1.
  - rewrite (gb_children _ _ _ _ B2); [|lia|unfold n, nid in *; lia]. apply (gw_kids _ _ _ _ _ _ _ _ _ G1).
  - split.
    + intros x Hx. rewrite (gb_parent _ _ _ _ B2) by lia. now apply B1.
    + intros x Hx Hxp. rewrite (gb_children _ _ _ _ B2); [now apply B1|lia|unfold n, nid in *; lia].
    + intros x Hx Hxp. rewrite (gb_siblings _ _ _ _ B2); [now apply B1|lia|].
      rewrite (gb_parent _ _ _ _ B1) by easy. intros Hpar.
      pose proof (gw_started _ _ _ _ _ _ _ _ _ G1) as S2. pose proof (r_wf _ _ (iv_rep _ _ (st_inv _ _ S2))) as W2.
      assert (Hin : In x (children_of F2 n)).
      { apply (parent_child F2 W2). now rewrite (gb_parent _ _ _ _ B1). }
      rewrite Hk2 in Hin. easy.
  - constructor; [|constructor]. constructor; [exact Hk3|apply G2].
  - intros x. cbn [flat_map preorder]. rewrite app_nil_r. cbn [In]. rewrite (gw_new _ _ _ _ _ _ _ _ _ G2 x).
    unfold n, nid in *. lia.
  - pose proof (gw_built _ _ _ _ _ _ _ _ _ G1) as HB.
    inversion HB as [|? ? ? ? ? ? ? ? l1 l2 Q1 Q2 Q3 Q4 Q5 Q6| |]; subst. inversion Q5; subst. inversion Q6; subst.
    cbn [app]. rewrite app_nil_r. rewrite <- (app_nil_r new).
    assert (En : dt D3 n = dt D2 n) by (apply (gw_data _ _ _ _ _ _ _ _ _ G2); easy).
    constructor.
    + unfold node_type in *. now rewrite En.
    + unfold tag_name in *. now rewrite En.
    + unfold id_of. now rewrite En.
    + unfold attributes in *. now rewrite En.
    + apply G2.
    + constructor.
  - eapply calls_trans; [apply G1|apply G2].
  - cbn [flat_map preorder]. rewrite app_nil_r, (gw_order _ _ _ _ _ _ _ _ _ G2), Hf2.
    replace (fresh D3 - fresh D) with (S (fresh D3 - S (fresh D))) by lia. reflexivity.
  - intros x. cbn [flat_map preorder]. rewrite app_nil_r. intros [<-|Hx]; [|now apply G2].
    unfold is_element, node_type, text_of. rewrite (gw_data _ _ _ _ _ _ _ _ _ G2 n Hn).
    apply (gw_words _ _ _ _ _ _ _ _ _ G1). now left.
Qed.

(* the check does nothing below elements *)
Lemma check_element p s : is_element (fst s) p = true -> check_first p s = Ok (POk s).
Proof. unfold check_first, is_root, is_element. destruct (node_type (fst s) p); easy. Qed.

(* the inner loops are the outer ones *)
Lemma go_nodes P rules top path p : forall l i s,
  (fix go i l s := match l with
     | [] => Ok (POk s)
     | c :: t => r <- process_node P rules top (path ++ [i]) c p s ;;
                 match r with POk s => go (S i) t s | PErr er => Ok (PErr er) end
     end) i l s = process_nodes P rules top path i l p s.
Proof.
  induction l as [|c l IH]; intros i s; [easy|]. cbn [process_nodes].
  destruct (process_node P rules top (path ++ [i]) c p s) as [[]| |]; cbn [bind]; auto.
Qed.
Lemma go_parts P rules top o path : forall l i,
  (fix go i l := match l with
     | [] => []
     | c :: t => svg_part P rules top o (path ++ [i]) c ++ go (S i) t
     end) i l = svg_parts P rules top o path i l.
Proof. induction l as [|c l IH]; intros i; [easy|]. cbn [svg_parts]. now rewrite IH. Qed.

(* ---- one node *)
Definition node_ok (P : values) (rules : list rule) (top : list xml) (x : xml) : Prop :=
  forall path p D F ls, started D F -> p < fresh D -> (is_element D p = true \/ p = droot D) ->
  exists D' F' ts new, grows P p D F D' F' (svg_part P rules top (tag_id D p) path x) ts new /\
    (process_node P rules top path x p (D, ls) = Ok (POk (D', ls ++ new)) /\ D' = D \/
     process_node P rules top path x p (D, ls) = check_first p (D', ls ++ new)).

Lemma kids_ok P rules top path p : forall l, Forall (node_ok P rules top) l -> forall i D F ls,
  started D F -> p < fresh D -> is_element D p = true ->
  exists D' F' ts new, grows P p D F D' F' (svg_parts P rules top (tag_id D p) path i l) ts new /\
    process_nodes P rules top path i l p (D, ls) = Ok (POk (D', ls ++ new)).
Proof.
  induction 1 as [|c l Hc Hl IH]; intros i D F ls S Hp He.
  - exists D, F, [], []. split; [now apply grows_refl|]. cbn. now rewrite app_nil_r.
  - destruct (Hc (path ++ [i]) p D F ls S Hp (or_introl He)) as (D1 & F1 & ts1 & n1 & G1 & H1).
    assert (Ed : dt D1 p = dt D p) by now apply G1.
    assert (He1 : is_element D1 p = true) by (unfold is_element, node_type in *; now rewrite Ed).
    assert (E1 : process_node P rules top (path ++ [i]) c p (D, ls) = Ok (POk (D1, ls ++ n1))).
    { destruct H1 as [(E & _)|E]; [exact E|]. rewrite E. now apply check_element. }
    pose proof (gw_fresh _ _ _ _ _ _ _ _ _ G1) as Hf1.
    destruct (IH (Datatypes.S i) D1 F1 (ls ++ n1)) as (D2 & F2 & ts2 & n2 & G2 & E2); [apply G1|unfold nid in *; lia|easy|].
    exists D2, F2, (ts1 ++ ts2), (n1 ++ n2). cbn [svg_parts process_nodes]. split.
    + apply (grows_trans P p D F D1 F1); [easy|easy|]. replace (tag_id D p) with (tag_id D1 p); [easy|].
      unfold tag_id, tag_name. now rewrite Ed.
    + rewrite E1. cbn [bind]. now rewrite E2, app_assoc.
Qed.

Lemma node_all P rules top x : node_ok P rules top x.
Proof.
  induction x as [ns local attrs kids IH|s|s|] using xml_ind'; intros path p D F ls S Hp Hpe; cbn [process_node svg_part].
  - change (lit "http://www.w3.org/2000/svg") with ns_svg. destruct (ostr_eqb ns (Some ns_svg)); cbn [negb].
    2:{ exists D, F, [], []. split; [now apply grows_refl|]. left. now rewrite app_nil_r. }
    rewrite element_named_eq. cbn [bind]. destruct (element_named local) as [e|].
    2:{ exists D, F, [], []. split; [now apply grows_refl|]. left. now rewrite app_nil_r. }
    destruct (element_grows P rules top path attrs p D F e ls S Hp Hpe) as (D2 & F2 & E2 & En & He2 & Ht2 & Hf2 & Hk2 & G2).
    set (ds := declarations P rules top path attrs) in *. set (n := fresh D) in *.
    assert (Hn2 : n < fresh D2) by (rewrite Hf2; unfold n; lia).
    destruct (kids_ok P rules top path n kids IH 0 D2 F2 (ls ++ references P e n ds) (gw_started _ _ _ _ _ _ _ _ _ G2) Hn2 He2)
      as (D3 & F3 & ts & new & G3 & E3).
    rewrite go_parts. exists D3, F3, [T n ts], (references P e n ds ++ new). split.
    + apply (content_grows P p n e (xml_id attrs) ds D F D2 F2 D3 F3); try easy. now rewrite <- Ht2.
    + right. cbn [fst snd]. destruct (create_element (QId e) D) as [r| |]; cbn [bind] in *; [|easy|easy].
      injection En as En. rewrite En in *.
      destruct (parse_attributes P attrs n (snd r, ls)) as [s1| |]; cbn [bind] in *; [|easy|easy].
      destruct (parse_rules P rules top path n s1) as [s2| |]; cbn [bind] in *; [|easy|easy].
      destruct (match plain_attribute (lit "style") attrs with Some v => parse_style_attribute P v n s2 | None => Ok s2 end)
        as [s3| |]; cbn [bind] in *; [|easy|easy].
      rewrite E2. cbn [bind]. rewrite go_nodes, E3. cbn [bind]. now rewrite app_assoc.
  - destruct (leaf_grows P p D F NText s ls S Hp Hpe (or_introl eq_refl)) as (D' & F' & E & G).
    unfold blank_str. cbn [fst]. change (keeps_white (tag_id D p)) with (white_matters (tag_id D p)).
    destruct (forallb is_white s) eqn:Ew; cbn [andb].
    + destruct (white_matters (tag_id D p)); cbn [negb].
      * exists D', F', [T (fresh D) []], []. split; [exact G|]. right. rewrite E. cbn [bind]. now rewrite app_nil_r.
      * exists D, F, [], []. split; [now apply grows_refl|]. right. cbn [bind]. now rewrite app_nil_r.
    + exists D', F', [T (fresh D) []], []. split; [exact G|]. right. rewrite E. cbn [bind]. now rewrite app_nil_r.
  - destruct (leaf_grows P p D F NComment s ls S Hp Hpe (or_intror eq_refl)) as (D' & F' & E & G).
    exists D', F', [T (fresh D) []], []. split; [exact G|]. right. rewrite E. cbn [bind]. now rewrite app_nil_r.
  - exists D, F, [], []. split; [now apply grows_refl|]. right. now rewrite app_nil_r.
Qed.

(* ---- the top level *)
Lemma built_tags P D F l ts ls : InvF D F -> built P D l ts ls ->
  map fst (filter_svg D (map t_node ts)) = flat_map (fun x => match x with SElement e _ _ _ => [e] | _ => [] end) l.
Proof.
  intros I. induction 1 as [|e id ds ks l n ts us l1 l2 H1 H2 H3 H4 Hk IHk Hl IHl|s l n us l2 H1 H2 Hl IHl|s l n us l2 H1 H2 Hl IHl].
  - easy.
  - cbn [map t_node filter_svg flat_map]. rewrite H2. cbn [map fst app]. now rewrite IHl.
  - cbn [map t_node filter_svg flat_map]. destruct (iv_plain D F I n) as (_ & -> & _); [unfold is_element; now rewrite H1|].
    exact IHl.
  - cbn [map t_node filter_svg flat_map]. destruct (iv_plain D F I n) as (_ & -> & _); [unfold is_element; now rewrite H1|].
    exact IHl.
Qed.
Lemma first_element_hd l : first_element l = hd_error (flat_map (fun x => match x with SElement e _ _ _ => [e] | _ => [] end) l).
Proof. induction l as [|[e id ds ks|s|s] l IH]; cbn; auto. Qed.
Lemma first_element_app l l' : first_element (l ++ l') = match first_element l with Some e => Some e | None => first_element l' end.
Proof. induction l as [|[e id ds ks|s|s] l IH]; cbn; auto. Qed.

Definition svg_first (l : list snode) : Prop := first_element l = None \/ first_element l = Some E_Svg.

Lemma root_children_list D F ts : InvF D F -> children_of F (droot D) = map t_node ts ->
  children_list (enough D) (lk D) (children (lk D) (droot D)) = Ok (map t_node ts).
Proof.
  intros I Hk. rewrite <- Hk. apply children_list_eq; [apply I|].
  pose proof (r_wf _ _ (iv_rep D F I)) as W. unfold enough.
  assert (length (children_of F (droot D)) <= fresh D); [|lia].
  rewrite <- (seq_length (fresh D) 0). apply NoDup_incl_length; [now apply children_nodup|].
  intros x Hx. apply in_seq. split; [lia|]. apply (wf_child F W) in Hx. apply (iso_no_parent D F x _ I) in Hx. apply Hx.
Qed.

Lemma check_root P D F l ts ls ls' : InvF D F -> children_of F (droot D) = map t_node ts -> built P D l ts ls' ->
  check_first (droot D) (D, ls) = Ok (match first_element l with
    | Some e => if eid_eqb e E_Svg then POk (D, ls) else PErr NoSvgElement
    | None => POk (D, ls) end).
Proof.
  intros I Hk HB. unfold check_first. cbn [fst].
  replace (is_root D (droot D)) with true.
  2:{ symmetry. unfold is_root. apply ntype_eqb_eq. now apply (iv_root D F I); [apply I|]. }
  rewrite (root_children_list D F ts I Hk). cbn [bind]. rewrite first_element_hd, <- (built_tags P D F l ts ls' I HB).
  destruct (filter_svg D (map t_node ts)) as [|[e n] t]; easy.
Qed.

Lemma eid_eqb_svg e : eid_eqb e E_Svg = true -> e = E_Svg.
Proof. apply eid_eqb_eq. Qed.

Lemma top_nodes P rules top path : forall l i D F ls l0 ts0 ls0, started D F ->
  children_of F (droot D) = map t_node ts0 -> built P D l0 ts0 ls0 -> Forall (tree_at F) ts0 ->
  (forall x, In x (flat_map preorder ts0) -> x < fresh D /\ x <> droot D) -> svg_first l0 ->
  let l' := l0 ++ svg_parts P rules top None path i l in
  (svg_first l' -> exists D' F' ts new, grows P (droot D) D F D' F' (svg_parts P rules top None path i l) ts new /\
     process_nodes P rules top path i l (droot D) (D, ls) = Ok (POk (D', ls ++ new))) /\
  (~ svg_first l' -> process_nodes P rules top path i l (droot D) (D, ls) = Ok (PErr NoSvgElement)).
Proof.
  induction l as [|c l IH]; intros i D F ls l0 ts0 ls0 S Hk HB Ht Hx H0; cbv zeta; cbn [svg_parts process_nodes].
  - rewrite app_nil_r. split; [|easy]. intros _. exists D, F, [], []. split; [now apply grows_refl|]. now rewrite app_nil_r.
  - pose proof (st_inv D F S) as I.
    assert (Hrt : tag_id D (droot D) = None).
    { unfold tag_id. destruct (iv_plain D F I (droot D)) as (_ & -> & _); [|easy]. unfold is_element.
      replace (node_type D (droot D)) with NRoot; [easy|]. symmetry. now apply (iv_root D F I); [apply I|]. }
    destruct (node_all P rules top c (path ++ [i]) (droot D) D F ls S (iv_rlt D F I) (or_intror eq_refl))
      as (D1 & F1 & ts1 & n1 & G1 & H1). rewrite Hrt in G1.
    set (l1 := svg_part P rules top None (path ++ [i]) c) in *.
    pose proof (gw_started _ _ _ _ _ _ _ _ _ G1) as S1. pose proof (gw_root _ _ _ _ _ _ _ _ _ G1) as Hr1.
    pose proof (gw_fresh _ _ _ _ _ _ _ _ _ G1) as Hf1.
    assert (Hk1 : children_of F1 (droot D1) = map t_node (ts0 ++ ts1)).
    { rewrite Hr1, (gw_kids _ _ _ _ _ _ _ _ _ G1), Hk, map_app. easy. }
    assert (HB1 : built P D1 (l0 ++ l1) (ts0 ++ ts1) (ls0 ++ n1)).
    { apply built_app; [|apply G1]. eapply built_data; [exact HB|]. intros x Hx0. apply G1. now apply Hx. }
    assert (Ht1 : Forall (tree_at F1) (ts0 ++ ts1)).
    { apply Forall_app. split; [|apply G1]. rewrite Forall_forall in *. intros t Ht0.
      eapply grown_below_tree; [|apply (gw_below _ _ _ _ _ _ _ _ _ G1)|now apply Ht]. intros x Hx0. apply Hx. apply in_flat_map. now exists t. }
    assert (Hx1 : forall x, In x (flat_map preorder (ts0 ++ ts1)) -> x < fresh D1 /\ x <> droot D1).
    { intros x. rewrite flat_map_app, in_app_iff, Hr1. intros [H|H].
      - apply Hx in H. unfold nid in *. lia.
      - apply (gw_new _ _ _ _ _ _ _ _ _ G1) in H. pose proof (iv_rlt D F I). unfold nid in *. lia. }
    assert (Ec : process_node P rules top (path ++ [i]) c (droot D) (D, ls) =
      Ok (match first_element (l0 ++ l1) with
          | Some e => if eid_eqb e E_Svg then POk (D1, ls ++ n1) else PErr NoSvgElement
          | None => POk (D1, ls ++ n1) end)).
    { destruct H1 as [(E & ->)|E].
      - rewrite E. pose proof (check_root P D F l0 ts0 (ls ++ n1) ls0 I Hk HB) as C0.
        assert (E0 : first_element (l0 ++ l1) = first_element l0).
        { pose proof (built_tags P D F1 _ _ _ (st_inv D F1 S1) HB1) as B1. pose proof (built_tags P D F _ _ _ I HB) as B0.
          rewrite !first_element_hd, <- B1, <- B0. f_equal. f_equal. f_equal.
          rewrite <- Hk1, <- Hk. pose proof (iv_rep D F1 (st_inv D F1 S1)) as R1. pose proof (iv_rep D F I) as R0.
          assert (X : children_list (enough D) (lk D) (children (lk D) (droot D)) = Ok (children_of F1 (droot D)))
            by (rewrite Hk1; apply (root_children_list D F1 _ (st_inv D F1 S1) Hk1)).
          assert (Y : children_list (enough D) (lk D) (children (lk D) (droot D)) = Ok (children_of F (droot D)))
            by (rewrite Hk; apply (root_children_list D F _ I Hk)).
          congruence. }
        rewrite E0. destruct H0 as [-> | ->]; easy.
      - rewrite E, <- Hr1. apply (check_root P D1 F1 (l0 ++ l1) (ts0 ++ ts1) _ _ (st_inv _ _ S1) Hk1 HB1). }
    rewrite Ec. cbn [bind]. rewrite app_assoc.
    assert (Hno : forall e, first_element (l0 ++ l1) = Some e -> first_element ((l0 ++ l1) ++ svg_parts P rules top None path (Datatypes.S i) l) = Some e)
      by (intros e He; now rewrite first_element_app, He).
    assert (Hgo : svg_first (l0 ++ l1) ->
      (svg_first ((l0 ++ l1) ++ svg_parts P rules top None path (Datatypes.S i) l) -> exists D' F' ts new,
         grows P (droot D) D F D' F' (l1 ++ svg_parts P rules top None path (Datatypes.S i) l) ts new /\
         process_nodes P rules top path (Datatypes.S i) l (droot D) (D1, ls ++ n1) = Ok (POk (D', ls ++ new))) /\
      (~ svg_first ((l0 ++ l1) ++ svg_parts P rules top None path (Datatypes.S i) l) ->
         process_nodes P rules top path (Datatypes.S i) l (droot D) (D1, ls ++ n1) = Ok (PErr NoSvgElement))).
    { intros Hf. destruct (IH (Datatypes.S i) D1 F1 (ls ++ n1) (l0 ++ l1) (ts0 ++ ts1) (ls0 ++ n1) S1 Hk1 HB1 Ht1 Hx1 Hf) as (Q1 & Q2).
      rewrite Hr1 in *. split; [|exact Q2].
      intros Hs. destruct (Q1 Hs) as (D2 & F2 & ts2 & n2 & G2 & E2).
      exists D2, F2, (ts1 ++ ts2), (n1 ++ n2). split; [|now rewrite app_assoc].
      apply (grows_trans P (droot D) D F D1 F1); [apply I|easy|easy]. }
    destruct (first_element (l0 ++ l1)) as [e|] eqn:Ee.
    + destruct (eid_eqb e E_Svg) eqn:Es.
      * apply eid_eqb_svg in Es. subst e. apply Hgo. now right.
      * specialize (Hno e eq_refl). split; [|easy]. intros [H|H]; rewrite Hno in H; [easy|].
        injection H as ->. discriminate Es.
    + apply Hgo. now left.
Qed.

Lemma started_new D : new_document = Ok D -> started D empty_forest.
Proof.
  intros H. destruct new_document_inv as (D0 & E & I & Hf & Hr & _). rewrite E in H. injection H as ->. split; try easy.
  - apply acyclic_empty.
  - intros n a. destruct (Nat.eq_dec n 0) as [->|Hn].
    + destruct (iv_plain D empty_forest I 0) as (-> & _); [|easy]. unfold is_element.
      replace (node_type D 0) with NRoot; [easy|]. symmetry. apply (iv_root D _ I); lia.
    + destruct (blank_facts D empty_forest n I) as (-> & _); [lia|easy].
  - intros m Hm. rewrite Hf in Hm. assert (m = 0) by lia. subst m.
    unfold new_document, alloc in E. cbn in E. injection E as <-. easy.
Qed.
