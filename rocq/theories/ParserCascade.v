(* The exact value of every attribute after parsing. *)
From Coq Require Import String List Bool PeanoNat NArith Lia.
From Verif Require Import Base Ids Links Tree Iter ForestSpec TreeSpec Data Attrs Slab NodeApi AttrSpec Doc History DocSpec
  ListFacts TreeProofs ForestFacts IterSpec IterProofs AttrFacts LinkProofs SlabProofs PruneFacts RemoveProofs InvProofs
  HistoryProofs DrainProofs CopyProofs TreeApi ApiProofs DocApi TidyProofs RootProofs Names NamesProofs Types Text TextSpec Loops
  TextProofs TextApi Parser ParserSpec ParserProofs ParserTree ParserLinks ParserApi ParserFacts ParserMeaning ParserStatements.
Import ListNotations.
Open Scope nat_scope.
Open Scope list_scope.

(* ---- the references of one node stand together *)
Definition earlier (n x : nid) (ls : list link) : Prop := exists l1 l2, ls = l1 ++ l2 /\ mine n l2 = [] /\ mine x l1 = [].
Lemma earlier_app_l n x l1 l2 : earlier n x l1 -> mine n l2 = [] -> earlier n x (l1 ++ l2).
Proof. intros (a & b & -> & H1 & H2) H. exists a, (b ++ l2). rewrite <- app_assoc, mine_app, H1, H. easy. Qed.
Lemma earlier_app_r n x l1 l2 : earlier n x l2 -> mine x l1 = [] -> earlier n x (l1 ++ l2).
Proof. intros (a & b & -> & H1 & H2) H. exists (l1 ++ a), b. rewrite <- app_assoc, mine_app, H2, H. easy. Qed.
Lemma earlier_split n x l1 l2 : mine n l2 = [] -> mine x l1 = [] -> earlier n x (l1 ++ l2).
Proof. intros H1 H2. now exists l1, l2. Qed.

Lemma built_mine P D l ts ls x : built P D l ts ls -> ~ In x (flat_map preorder ts) -> mine x ls = [].
Proof. intros H Hx. apply mine_none. intros d Hd <-. apply Hx, (built_nodes P D l ts ls H d Hd). Qed.
Lemma mine_block P e n ds x : x <> n -> mine x (references P e n ds) = [].
Proof. intros Hx. apply mine_none. intros d Hd. rewrite (references_node P e n ds d Hd). congruence. Qed.

Lemma built_ordered P D l ts ls : built P D l ts ls -> NoDup (flat_map preorder ts) ->
  forall n x, n <> x -> earlier n x ls \/ earlier x n ls.
Proof.
  induction 1 as [|e id ds ks l m ts us l1 l2 H1 H2 H3 H4 Hk IHk Hl IHl|s l m us l2 H1 H2 Hl IHl|s l m us l2 H1 H2 Hl IHl];
    intros Hnd n x Hne; cbn [flat_map preorder app] in Hnd.
  - left. now exists [], [].
  - inversion Hnd as [|? ? Hm0 Hnd']; subst.
    pose proof (nodup_app_l _ _ Hnd') as Hnd1. pose proof (NoDup_app_r _ _ Hnd') as Hnd2.
    assert (Hdis : forall y, In y (flat_map preorder ts) -> In y (flat_map preorder us) -> False).
    { intros y Hy1 Hy2. now apply (NoDup_app_disj _ _ y Hnd'). }
    assert (Hm1 : mine m l1 = []) by (apply (built_mine P D ks ts l1 m Hk); intros H; apply Hm0, in_app_iff; now left).
    assert (Hm2 : mine m l2 = []) by (apply (built_mine P D l us l2 m Hl); intros H; apply Hm0, in_app_iff; now right).
    destruct (Nat.eq_dec n m) as [->|Hn].
    { left. apply earlier_split; [now rewrite mine_app, Hm1, Hm2|now apply mine_block; congruence]. }
    destruct (Nat.eq_dec x m) as [->|Hx].
    { right. apply earlier_split; [now rewrite mine_app, Hm1, Hm2|now apply mine_block]. }
    assert (Hin : forall y, {In y (flat_map preorder ts)} + {~ In y (flat_map preorder ts)}) by (intros y; apply in_dec, Nat.eq_dec).
    assert (H12 : earlier n x (l1 ++ l2) \/ earlier x n (l1 ++ l2)).
    { destruct (Hin n) as [Hnt|Hnt], (Hin x) as [Hxt|Hxt].
      - assert (Hn2 : mine n l2 = []) by (apply (built_mine P D l us l2 n Hl); intros H; now apply (Hdis n)).
        assert (Hx2 : mine x l2 = []) by (apply (built_mine P D l us l2 x Hl); intros H; now apply (Hdis x)).
        destruct (IHk Hnd1 n x Hne) as [H|H]; [left|right]; now apply earlier_app_l.
      - left. apply earlier_split; [apply (built_mine P D l us l2 n Hl); intros H; now apply (Hdis n)|now apply (built_mine P D ks ts l1 x Hk)].
      - right. apply earlier_split; [apply (built_mine P D l us l2 x Hl); intros H; now apply (Hdis x)|now apply (built_mine P D ks ts l1 n Hk)].
      - pose proof (built_mine P D ks ts l1 n Hk Hnt) as Hn1. pose proof (built_mine P D ks ts l1 x Hk Hxt) as Hx1.
        destruct (IHl Hnd2 n x Hne) as [H|H]; [left|right]; now apply earlier_app_r. }
    destruct H12 as [H|H]; [left|right]; apply earlier_app_r; try easy; now apply mine_block.
  - inversion Hnd; subst. now apply IHl.
  - inversion Hnd; subst. now apply IHl.
Qed.

Lemma filter_split {A} (f : A -> bool) : forall l m1 m2, filter f l = m1 ++ m2 ->
  exists l1 l2, l = l1 ++ l2 /\ filter f l1 = m1 /\ filter f l2 = m2.
Proof.
  induction l as [|x l IH]; intros m1 m2 H; cbn [filter] in H.
  - symmetry in H. apply app_eq_nil in H. destruct H as (-> & ->). now exists [], [].
  - destruct (f x) eqn:E.
    + destruct m1 as [|y m1]; cbn [app] in H.
      * exists [], (x :: l). cbn [filter app]. now rewrite E.
      * injection H as -> H. destruct (IH m1 m2 H) as (l1 & l2 & -> & H1 & H2). exists (y :: l1), l2. cbn [filter app]. now rewrite E, H1.
    + destruct (IH m1 m2 H) as (l1 & l2 & -> & H1 & H2). exists (x :: l1), l2. cbn [filter app]. now rewrite E.
Qed.
Lemma earlier_filter (f : nid -> bool) n x ls : f n = true -> f x = true ->
  earlier n x (filter (fun d => f (l_node d)) ls) -> earlier n x ls.
Proof.
  intros Hn Hx (m1 & m2 & E & H1 & H2). destruct (filter_split _ _ _ _ E) as (l1 & l2 & -> & E1 & E2). exists l1, l2. split; [easy|].
  rewrite <- (mine_filter n f l2 Hn), <- (mine_filter x f l1 Hx), E1, E2. easy.
Qed.

(* ---- attributes of a node change only by its own references *)
Lemma resolves_other t d D D' m : resolves t d D D' -> l_node d <> m -> attributes D' m = attributes D m.
Proof.
  unfold resolves. intros H Hm. destruct (first_with_id D t (l_iri d)).
  - destruct (refused _ _ _); [now subst D'|]. destruct H as (_ & _ & H). apply H. congruence.
  - destruct H as (_ & _ & H). apply H. congruence.
Qed.
Lemma resolved_other t ls D D' m : resolved t ls D D' -> mine m ls = [] -> attributes D' m = attributes D m.
Proof.
  induction 1 as [|d ls D D1 D' H1 H IH]; intros Hm; [easy|]. unfold mine in Hm. cbn [filter] in Hm.
  destruct (Nat.eqb (l_node d) m) eqn:E; [easy|]. apply Nat.eqb_neq in E. rewrite IH by easy. now apply (resolves_other t d).
Qed.
Lemma uses_iff D x y : Nat.ltb 0 (uses D x y) = true <-> exists a, In a (attributes D x) /\ link_target (a_value a) = Some y.
Proof.
  split; [apply uses_some|]. intros (a & Ha & Ht). unfold uses. apply Nat.ltb_lt.
  destruct (filter _ (attributes D x)) as [|b l] eqn:E; [|cbn; lia].
  assert (X : In a []); [|easy]. rewrite <- E. apply filter_In. split; [easy|]. rewrite Ht. apply Nat.eqb_refl.
Qed.
Lemma uses_same D D' x y : attributes D' x = attributes D x -> uses D' x y = uses D x y.
Proof. unfold uses. now intros ->. Qed.

(* a node that links to [x] is not linked from [x] later on *)
Lemma no_backlink t n x ls : forall D D', resolved t ls D D' -> mine n ls = [] -> n <> x ->
  Nat.ltb 0 (uses D n x) = true ->
  forall b, In b (attributes D' x) -> link_target (a_value b) = Some n -> In b (attributes D x).
Proof.
  induction ls as [|d ls IH]; intros D D' H Hn Hne Hu b Hb Ht; [now inversion H; subst|].
  inversion H as [|d' ls' D0 D1 D2 H1 H2]; subst. unfold mine in Hn. cbn [filter] in Hn.
  destruct (Nat.eqb (l_node d) n) eqn:E; [easy|]. apply Nat.eqb_neq in E.
  assert (Hu1 : Nat.ltb 0 (uses D1 n x) = true) by now rewrite (uses_same D D1) by now apply (resolves_other t d).
  pose proof (IH D1 D' H2 Hn Hne Hu1 b Hb Ht) as Hb1. clear IH.
  unfold resolves in H1. destruct (first_with_id D t (l_iri d)) as [y|] eqn:Ey.
  - destruct (refused D (l_node d) (mkAttr (QId (l_attr d)) (VLink y))) eqn:Er; [now subst D1|].
    destruct (only_set_all _ _ _ _ _ _ _ H1 Hb1) as [|(-> & ->)]; [easy|]. exfalso. cbn [a_value] in Ht.
    assert (y = n) as ->. { unfold pointing in Ht. destruct (l_attr d); cbn in Ht; congruence. }
    unfold refused in Er. cbn [a_value link_target] in Er. rewrite Hu in Er.
    destruct (str_eqb (id_of D n) []); [easy|]. destruct (str_eqb (id_of D (l_node d)) (id_of D n)); easy.
  - destruct (only_set_all _ _ _ _ _ _ _ H1 Hb1) as [|(-> & ->)]; [easy|]. exfalso. cbn [a_value] in Ht.
    rewrite instead_plain in Ht. easy.
Qed.

(* ---- what became of the references of one attribute *)
Definition stopped (t : tree) (D : dom) (d : link) : Prop := exists x e,
  first_with_id D t (l_iri d) = Some x /\ refused D (l_node d) (mkAttr (QId (l_attr d)) (VLink x)) = Some e.
Definition taken (t : tree) (D : dom) (d : link) (v : avalue) : Prop :=
  match first_with_id D t (l_iri d) with
  | None => v = instead d
  | Some x => refused D (l_node d) (mkAttr (QId (l_attr d)) (VLink x)) = None /\ v = pointing d x
  end.
(* every reference to [a] of [n] in [l2] is stopped when its time comes; [l1] comes before *)
Definition all_stopped (t : tree) (n : nid) (a : aid) (l1 l2 : list link) (D D' : dom) : Prop :=
  forall d p q, l2 = p ++ d :: q -> hits n a d = true ->
    exists Dp, resolved t (l1 ++ p) D Dp /\ resolved t (d :: q) Dp D' /\ stopped t Dp d.

Lemma resolved_join t l1 : forall l2 D Dm D', resolved t l1 D Dm -> resolved t l2 Dm D' -> resolved t (l1 ++ l2) D D'.
Proof.
  induction l1 as [|d l1 IH]; intros l2 D Dm D' H1 H2; inversion H1 as [|d' ls' D0 Dx Dy H3 H4]; subst; [easy|].
  cbn [app]. apply (res_cons t d _ D Dx); [easy|]. now apply (IH l2 Dx Dm).
Qed.
Lemma resolved_one t d D D' : resolves t d D D' -> resolved t [d] D D'.
Proof. intros H. apply (res_cons t d [] D D'); [easy|constructor]. Qed.
Lemma resolved_snoc t l d D D' : resolved t (l ++ [d]) D D' -> exists Dm, resolved t l D Dm /\ resolves t d Dm D'.
Proof.
  intros H. destruct (resolved_app t l [d] D D' H) as (Dm & H1 & H2). exists Dm. split; [easy|].
  inversion H2 as [|d' ls' D0 Dx Dy H3 H4]; subst. now inversion H4; subst.
Qed.
Lemma snoc_cases {A} (l p q : list A) (x d : A) : l ++ [x] = p ++ d :: q ->
  (q = [] /\ x = d /\ p = l) \/ exists q', q = q' ++ [x] /\ l = p ++ d :: q'.
Proof.
  destruct q as [|y q _] using rev_ind.
  - intros H. apply app_inj_tail in H. left. now destruct H as (-> & ->).
  - intros H. change (p ++ d :: q ++ [y]) with (p ++ (d :: q) ++ [y]) in H. rewrite app_assoc in H. apply app_inj_tail in H.
    destruct H as (-> & ->). right. now exists q.
Qed.
Lemma all_stopped_snoc t n a l1 l2 d D Dm D' : all_stopped t n a l1 l2 D Dm -> resolved t (l1 ++ l2) D Dm -> resolves t d Dm D' ->
  (hits n a d = true -> stopped t Dm d) -> all_stopped t n a l1 (l2 ++ [d]) D D'.
Proof.
  intros Ha H1 H2 Hs d1 p q E Hh. destruct (snoc_cases _ _ _ _ _ E) as [(-> & -> & ->)|(q' & -> & ->)].
  - exists Dm. split; [exact H1|]. split; [now apply resolved_one|now apply Hs].
  - destruct (Ha d1 p q' eq_refl Hh) as (Dp & Q1 & Q2 & Q3). exists Dp. split; [easy|]. split; [|easy].
    change (d1 :: q' ++ [d]) with ((d1 :: q') ++ [d]). apply (resolved_join t _ _ Dp Dm); [easy|now apply resolved_one].
Qed.

Lemma outcome_of t n a D : forall ls D', resolved t ls D D' ->
  (all_stopped t n a [] ls D D' /\ forall v, In (mkAttr (QId a) v) (attributes D' n) <-> In (mkAttr (QId a) v) (attributes D n)) \/
  (exists l1 d l2 Dm v0, ls = l1 ++ d :: l2 /\ hits n a d = true /\ resolved t l1 D Dm /\ resolved t (d :: l2) Dm D' /\ taken t Dm d v0 /\
     all_stopped t n a (l1 ++ [d]) l2 D D' /\ forall v, In (mkAttr (QId a) v) (attributes D' n) <-> v = v0).
Proof.
  induction ls as [|d ls IH] using rev_ind; intros D' H.
  - inversion H; subst. left. split; [|easy]. intros d p q E. destruct p; discriminate E.
  - destruct (resolved_snoc t ls d D D' H) as (Dm & H1 & H2). specialize (IH Dm H1).
    assert (Hnew : forall v0, hits n a d = true -> taken t Dm d v0 -> (forall v, In (mkAttr (QId a) v) (attributes D' n) <-> v = v0) ->
      exists l1 d0 l2 Dm0 v0, ls ++ [d] = l1 ++ d0 :: l2 /\ hits n a d0 = true /\ resolved t l1 D Dm0 /\ resolved t (d0 :: l2) Dm0 D' /\
         taken t Dm0 d0 v0 /\ all_stopped t n a (l1 ++ [d0]) l2 D D' /\ forall v, In (mkAttr (QId a) v) (attributes D' n) <-> v = v0).
    { intros v0 Hh Ht Hv. exists ls, d, [], Dm, v0. repeat (split; [easy|]). split; [now apply resolved_one|]. split; [easy|].
      split; [intros d0 p q E; destruct p; discriminate E|easy]. }
    assert (Hno : (hits n a d = true -> stopped t Dm d) -> (forall v, In (mkAttr (QId a) v) (attributes D' n) <-> In (mkAttr (QId a) v) (attributes Dm n)) ->
      (all_stopped t n a [] (ls ++ [d]) D D' /\ forall v, In (mkAttr (QId a) v) (attributes D' n) <-> In (mkAttr (QId a) v) (attributes D n)) \/
      (exists l1 d0 l2 Dm0 v0, ls ++ [d] = l1 ++ d0 :: l2 /\ hits n a d0 = true /\ resolved t l1 D Dm0 /\ resolved t (d0 :: l2) Dm0 D' /\
         taken t Dm0 d0 v0 /\ all_stopped t n a (l1 ++ [d0]) l2 D D' /\ forall v, In (mkAttr (QId a) v) (attributes D' n) <-> v = v0)).
    { intros Hs Hk. destruct IH as [(Ha & Hv)|(l1 & d0 & l2 & Dm0 & v0 & -> & Hh & Hr & Hr' & Ht & Ha & Hv)].
      - left. split; [|intros v; now rewrite Hk]. now apply (all_stopped_snoc t n a [] ls d D Dm).
      - right. exists l1, d0, (l2 ++ [d]), Dm0, v0. split; [now rewrite <- app_assoc|]. split; [easy|]. split; [easy|].
        split; [change (d0 :: l2 ++ [d]) with ((d0 :: l2) ++ [d]); apply (resolved_join t _ _ Dm0 Dm); [easy|now apply resolved_one]|].
        split; [easy|]. split; [|intros v; now rewrite Hk]. apply (all_stopped_snoc t n a (l1 ++ [d0]) l2 d D Dm); try easy.
        now rewrite <- app_assoc. }
    destruct (hits n a d) eqn:Eh.
    + pose proof Eh as Eh0. apply hits_iff in Eh0. destruct Eh0 as (<- & <-).
      unfold resolves in H2. destruct (first_with_id Dm t (l_iri d)) as [x|] eqn:Ef.
      * destruct (refused Dm (l_node d) (mkAttr (QId (l_attr d)) (VLink x))) as [er|] eqn:Er.
        -- subst D'. apply Hno; [|easy]. intros _. now exists x, er.
        -- right. apply (Hnew (pointing d x)); [easy|unfold taken; rewrite Ef; easy|]. intros v. now apply (only_set_at Dm D').
      * right. apply (Hnew (instead d)); [easy|unfold taken; rewrite Ef; easy|]. intros v. now apply (only_set_at Dm D').
    + apply Hno; [easy|]. intros v. now apply (resolves_keep t d).
Qed.

Lemma mine_in n ls d : In d ls -> l_node d = n -> mine n ls <> [].
Proof. intros H E X. assert (Y : In d (mine n ls)); [|now rewrite X in Y]. apply filter_In. split; [easy|]. now apply Nat.eqb_eq. Qed.

Section Exact.
Context (t : tree) (ls : list link) (D1 D2 : dom) (n : nid) (a : aid).
Context (Hplain : forall m b, In b (attributes D1 m) -> link_target (a_value b) = None).
Context (Hord : forall x, In x (preorder t) -> n <> x -> earlier n x ls \/ earlier x n ls).

Lemma first_in D id x : first_with_id D t id = Some x -> In x (preorder t) /\ id_of D x = id.
Proof. intros H. apply find_some in H. destruct H as (H1 & H2). split; [easy|]. now apply str_eqb_eq in H2. Qed.

(* two ways to cut a list *)
Lemma cut_cases {A} : forall (l1 l2 k1 k2 : list A), l1 ++ l2 = k1 ++ k2 ->
  (exists m, k1 = l1 ++ m /\ l2 = m ++ k2) \/ (exists m, l1 = k1 ++ m /\ k2 = m ++ l2).
Proof.
  induction l1 as [|x l1 IH]; intros l2 k1 k2 H; cbn [app] in H.
  - left. now exists k1.
  - destruct k1 as [|y k1]; cbn [app] in H.
    + right. exists (x :: l1). now subst k2.
    + injection H as -> H. destruct (IH l2 k1 k2 H) as [(m & -> & ->)|(m & -> & ->)]; [left|right]; now exists m.
Qed.

(* at the time of a reference of [n], the target is done with, or has no link to [n] yet *)
Lemma before_it x l1 d l2 Dm : ls = l1 ++ d :: l2 -> l_node d = n -> n <> x -> In x (preorder t) ->
  resolved t l1 D1 Dm -> resolved t (d :: l2) Dm D2 ->
  attributes D2 x = attributes Dm x \/
  (attributes Dm x = attributes D1 x /\
   exists m k2 Dk, d :: l2 = m ++ k2 /\ resolved t m Dm Dk /\ resolved t k2 Dk D2 /\ mine n k2 = [] /\
     attributes Dk x = attributes D1 x /\ attributes D2 n = attributes Dk n).
Proof.
  intros E Hd Hne Hx H1 H2. destruct (Hord x Hx Hne) as [(k1 & k2 & Ek & Q1 & Q2)|(k1 & k2 & Ek & Q1 & Q2)]; rewrite E in Ek.
  - destruct (cut_cases _ _ _ _ Ek) as [(m & -> & E2)|(m & -> & ->)].
    + right. rewrite mine_app in Q2. apply app_eq_nil in Q2. destruct Q2 as (Q2 & Q3).
      assert (Ex : attributes Dm x = attributes D1 x) by now apply (resolved_other t l1).
      split; [easy|]. rewrite E2 in H2. destruct (resolved_app t m k2 Dm D2 H2) as (Dk & H3 & H4).
      exists m, k2, Dk. repeat (split; [easy|]). split; [|now apply (resolved_other t k2)].
      rewrite (resolved_other t m Dm Dk x H3 Q3). easy.
    + exfalso. apply (mine_in n (m ++ d :: l2) d); [apply in_app_iff; right; now left|easy|easy].
  - left. destruct (cut_cases _ _ _ _ Ek) as [(m & -> & E2)|(m & -> & ->)].
    + destruct m as [|d' m].
      * cbn [app] in E2. rewrite app_nil_r in *. rewrite <- E2 in Q1. now apply (resolved_other t (d :: l2)).
      * exfalso. injection E2 as <- ->. apply (mine_in n (l1 ++ d :: m) d); [apply in_app_iff; right; now left|easy|easy].
    + rewrite mine_app in Q1. apply app_eq_nil in Q1. now apply (resolved_other t (d :: l2)).
Qed.

Lemma stopped_stays l1 d l2 Dm : ls = l1 ++ d :: l2 -> hits n a d = true -> resolved t l1 D1 Dm -> resolved t (d :: l2) Dm D2 ->
  stopped t Dm d -> reference_value D2 t d = [].
Proof.
  intros E Hh H1 H2 (x & er & Ef & Er). apply hits_iff in Hh. destruct Hh as (Hd & _).
  pose proof (resolved_same _ _ _ _ H2) as S. unfold reference_value. rewrite (first_same Dm D2) by easy. rewrite Ef.
  unfold refused in *. cbn [a_value link_target] in *. rewrite !(sn_id _ _ S). rewrite Hd in *.
  destruct (str_eqb (id_of Dm x) []); [easy|]. destruct (str_eqb (id_of Dm n) (id_of Dm x)) eqn:Ei; [easy|].
  destruct (Nat.ltb 0 (uses Dm x n)) eqn:Eu; [|easy].
  assert (Hne : n <> x). { intros ->. now rewrite (proj2 (str_eqb_eq _ _) eq_refl) in Ei. }
  destruct (before_it x l1 d l2 Dm E Hd Hne) as [Hs|(Hs & _)]; try easy; [now apply (first_in Dm (l_iri d))| |].
  - now rewrite (uses_same Dm D2), Eu.
  - exfalso. apply uses_some in Eu. destruct Eu as (b & Hb & Tb). rewrite Hs in Hb. apply Hplain in Hb. congruence.
Qed.

Lemma taken_stays l1 d l2 Dm v0 : ls = l1 ++ d :: l2 -> hits n a d = true -> resolved t l1 D1 Dm -> resolved t (d :: l2) Dm D2 ->
  taken t Dm d v0 -> In (mkAttr (QId a) v0) (attributes D2 n) -> reference_value D2 t d = [v0].
Proof.
  intros E Hh H1 H2 Ht Hv. apply hits_iff in Hh. destruct Hh as (Hd & _).
  pose proof (resolved_same _ _ _ _ H2) as S. unfold reference_value, taken in *. rewrite (first_same Dm D2) by easy.
  destruct (first_with_id Dm t (l_iri d)) as [x|] eqn:Ef; [|now subst v0]. destruct Ht as (Er & Ev).
  replace (refused D2 (l_node d) (mkAttr (QId (l_attr d)) (VLink x))) with (@None error); [now subst v0|]. symmetry.
  unfold refused in *. cbn [a_value link_target] in *. rewrite !(sn_id _ _ S). rewrite Hd in *.
  destruct (str_eqb (id_of Dm x) []); [easy|]. destruct (str_eqb (id_of Dm n) (id_of Dm x)) eqn:Ei; [easy|].
  destruct (Nat.ltb 0 (uses Dm x n)) eqn:Eu; [easy|].
  assert (Hne : n <> x). { intros ->. now rewrite (proj2 (str_eqb_eq _ _) eq_refl) in Ei. }
  destruct (before_it x l1 d l2 Dm E Hd Hne) as [Hs|(Hs & m & k2 & Dk & _ & H3 & H4 & Hn & Hx & Hnk)]; try easy; [now apply (first_in Dm (l_iri d))| |].
  - now rewrite (uses_same Dm D2), Eu.
  - destruct (Nat.ltb 0 (uses D2 x n)) eqn:Eu2; [|easy]. exfalso. apply uses_some in Eu2. destruct Eu2 as (b & Hb & Tb).
    assert (Hu : Nat.ltb 0 (uses Dk n x) = true).
    { apply uses_iff. exists (mkAttr (QId a) v0). split; [now rewrite <- Hnk|]. subst v0. cbn [a_value]. unfold pointing. now destruct (l_attr d). }
    pose proof (no_backlink t n x k2 Dk D2 H4 Hn Hne Hu b Hb Tb) as Hb1. rewrite Hx in Hb1. apply Hplain in Hb1. congruence.
Qed.

Lemma all_stopped_values l1 l2 : ls = l1 ++ l2 -> all_stopped t n a l1 l2 D1 D2 -> flat_map (reference_value D2 t) (filter (hits n a) l2) = [].
Proof.
  intros E Ha.
  assert (G : forall d, In d (filter (hits n a) l2) -> reference_value D2 t d = []).
  { intros d Hd. apply filter_In in Hd. destruct Hd as (Hd & Hh). apply in_split in Hd. destruct Hd as (p & q & Ep).
    destruct (Ha d p q Ep Hh) as (Dp & Q1 & Q2 & Q3). apply (stopped_stays (l1 ++ p) d q Dp); try easy. now rewrite <- app_assoc, <- Ep. }
  induction (filter (hits n a) l2) as [|d l IH]; [easy|]. cbn [flat_map]. rewrite (G d) by now left. apply IH. intros d' Hd. apply G. now right.
Qed.

Theorem exact_value : resolved t ls D1 D2 -> forall v, In (mkAttr (QId a) v) (attributes D2 n) <->
  match rev (flat_map (reference_value D2 t) (filter (hits n a) ls)) with
  | w :: _ => v = w
  | [] => In (mkAttr (QId a) v) (attributes D1 n)
  end.
Proof.
  intros H v. destruct (outcome_of t n a D1 ls D2 H) as [(Ha & Hv)|(l1 & d & l2 & Dm & v0 & E & Hh & H1 & H2 & Ht & Ha & Hv)].
  - rewrite (all_stopped_values [] ls eq_refl Ha). apply Hv.
  - rewrite Hv, E, filter_app. cbn [filter]. rewrite Hh, flat_map_app. cbn [flat_map].
    rewrite (all_stopped_values (l1 ++ [d]) l2); [|now rewrite <- app_assoc|easy].
    rewrite (taken_stays l1 d l2 Dm v0); try easy; [|now apply Hv]. rewrite app_nil_r, rev_app_distr. easy.
Qed.
End Exact.

(* ---- the parser *)
Lemma reference_value_run P top D1 D2 D3 F F3 t ls (R : run P top D1 D2 D3 F F3 t ls) d :
  reference_value D3 (final_tree D2 D3 t) d = reference_value D2 t d.
Proof.
  assert (Hid : forall n, id_of D3 n = id_of D2 n) by (intros n; apply (run_id3 _ _ _ _ _ _ _ _ _ R)).
  assert (Hr : forall n b, refused D3 n b = refused D2 n b).
  { intros n b. unfold refused. destruct (link_target (a_value b)); [|easy]. rewrite !Hid.
    now rewrite (uses_same D2 D3) by apply (run_attrs3 _ _ _ _ _ _ _ _ _ R). }
  unfold reference_value. destruct (l_iri d) as [|c s] eqn:Ei.
  - destruct (run_tree P top D1 D2 D3 F F3 t ls R) as (_ & Hn & _).
    assert (Hn2 : droot D3 = t_node t) by (rewrite <- Hn; unfold final_tree; apply drained_node).
    assert (He : id_of D2 (t_node t) = []).
    { rewrite (rn_root _ _ _ _ _ _ _ _ _ R), (run_id P top D1 D2 D3 F F3 t ls R).
      destruct (iv_plain _ _ (rn_inv1 _ _ _ _ _ _ _ _ _ R) (droot D1)) as (_ & _ & E4); [|exact E4].
      unfold is_element. replace (node_type D1 (droot D1)) with NRoot; [easy|]. symmetry.
      apply (iv_root _ _ (rn_inv1 _ _ _ _ _ _ _ _ _ R)); [|easy]. apply (rn_inv1 _ _ _ _ _ _ _ _ _ R). }
    unfold first_with_id. rewrite !preorder_eta. cbn [find]. rewrite Hn, Hn2, Hid, He. cbn [str_eqb].
    unfold refused. cbn [a_value link_target]. rewrite Hid, He. easy.
  - rewrite (run_first P top D1 D2 D3 F F3 t ls R) by easy.
    rewrite <- (first_same D1 D2) by apply (resolved_same t ls D1 D2 (rn_resolved _ _ _ _ _ _ _ _ _ R)).
    destruct (first_with_id D2 t (c :: s)); [|easy]. now rewrite Hr.
Qed.
Theorem cascade_exact P top D : parse_svg P (Some top) = Ok (POk D) ->
  exists t, document_tree D t /\
    shown (fun e ds n => forall a v, In (mkAttr (QId a) v) (attributes D n) <-> final_value P D t e ds n a = Some v)
      D (flat_map no_style (svg_of P top)) (t_kids t).
Proof.
  intros E. destruct (parse_run P top D E) as (_ & D1 & D2 & F & F3 & t & ls & R & _).
  exists (final_tree D2 D t). split; [apply (run_document _ _ _ _ _ _ _ _ _ R)|].
  apply (run_facts P top D1 D2 D F F3 t ls R). intros e ds n Hn _ _ _ Hraw a v. rewrite (run_attrs3 _ _ _ _ _ _ _ _ _ R).
  destruct Hraw as (Hp & Hm).
  assert (Hin : forall x, In x (preorder t) -> mem x (preorder t) = true).
  { intros x Hx. now apply mem_In. }
  assert (Hnt : In n (preorder t)) by (rewrite preorder_eta; now right).
  assert (Hnd : NoDup (preorder t)) by (apply (preorder_nodup F); [apply (iv_rep D1 F), R|apply R]).
  assert (Hord : forall x, In x (preorder t) -> n <> x -> earlier n x ls \/ earlier x n ls).
  { intros x Hx Hne. destruct (built_ordered P D1 _ _ _ (rn_built _ _ _ _ _ _ _ _ _ R)) with (n := n) (x := x) as [H|H]; try easy.
    - rewrite preorder_eta in Hnd. now inversion Hnd.
    - left. apply (earlier_filter (fun m => mem m (preorder t))); auto.
    - right. apply (earlier_filter (fun m => mem m (preorder t))); auto. }
  rewrite (exact_value t ls D1 D2 n a (rn_plain _ _ _ _ _ _ _ _ _ R) Hord (rn_resolved _ _ _ _ _ _ _ _ _ R) v).
  unfold final_value. rewrite hits_mine, Hm.
  assert (Ev : flat_map (reference_value D2 t) (filter (about a) (references P e n ds)) =
               flat_map (reference_value D (final_tree D2 D t)) (filter (fun d => aid_eqb (l_attr d) a) (references P e n ds))).
  { unfold about. apply flat_map_ext. intros d. symmetry. apply (reference_value_run P top D1 D2 D F F3 t ls R). }
  rewrite Ev. destruct (rev _) as [|w l].
  - rewrite Hp. split; [intros (b & [= <-] & H); easy|intros H; now exists a].
  - split; congruence.
Qed.
