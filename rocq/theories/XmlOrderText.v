(* The order of attributes and users does not matter to the processing of text. *)
From Coq Require Import List Bool PeanoNat NArith Lia Sorting.Permutation.
From Verif Require Import Base Ids Links Tree Iter ForestSpec TreeSpec Data Attrs Slab NodeApi Doc Text
  AttrFacts LinkProofs AttrSpec DocSpec NodeSpec History InvProofs HistoryProofs ApiProofs NodeProofs
  ListFacts ForestFacts TreeProofs World WorldSpec WorldInv WorldProofs MixProofs DrainEditProofs OrderSpec OrderProofs OrderWrite.
Import ListNotations.
Open Scope nat_scope.
Open Scope list_scope.

Lemma outcome_bind {A B} (Q : A -> A -> Prop) (R : B -> B -> Prop) x y f g : same_outcome Q x y ->
  (forall a b, Q a b -> same_outcome R (f a) (g b)) -> same_outcome R (bind x f) (bind y g).
Proof. intros H K. destruct x, y; try contradiction; try easy. now apply K. Qed.
Lemma outcome_trans {A} (R : A -> A -> Prop) x y z : (forall a b c, R a b -> R b c -> R a c) ->
  same_outcome R x y -> same_outcome R y z -> same_outcome R x z.
Proof. intros T. destruct x, y, z; try contradiction; try easy. apply T. Qed.
Lemma outcome_refl {A} (R : A -> A -> Prop) x : (forall a, x = Ok a -> R a a) -> same_outcome R x x.
Proof. intros H. destruct x; try easy. now apply H. Qed.

Lemma typed_exists D n : reachable D -> node_type D n <> NRoot -> exists_node D n.
Proof.
  intros R H. destruct (reachable_inv D R) as (F & I & _). destruct (Nat.lt_ge_cases n (fresh D)) as [Hn|Hn]; [exact Hn|].
  exfalso. apply H. unfold node_type. now rewrite (iv_blank D F I n Hn).
Qed.
Lemma element_exists D n : reachable D -> is_element D n = true -> exists_node D n.
Proof. intros R H. apply (typed_exists D n R). unfold is_element in H. destruct (node_type D n); easy. Qed.
Lemma text_exists D n : reachable D -> is_text D n = true -> exists_node D n.
Proof. intros R H. apply (typed_exists D n R). unfold is_text in H. destruct (node_type D n); easy. Qed.
Lemma up_exists D n : reachable D -> forall m, parent (lk D) n = Some m -> exists_node D m.
Proof. intros R m H. destruct (bd_links D (reachable_bounded D R) n) as (_ & Hf & _). exact (Hf m H). Qed.

Section S.
  Variables D D' : dom.
  Hypothesis R : rel D D'.
  Lemma rel_text n : is_text D' n = is_text D n.
  Proof. unfold is_text. now rewrite (si_type _ _ _ (rl_all D D' R n)). Qed.
  Lemma rel_words n : text_of D' n = text_of D n.
  Proof. apply (rl_all D D' R n). Qed.
  Lemma rel_value n x : attrs_get_value (attributes D' n) x = attrs_get_value (attributes D n) x.
  Proof. rewrite !get_value_get. now rewrite (rel_get D D' n x R). Qed.
  Lemma rel_children n : children (lk D') n = children (lk D) n.
  Proof. unfold children. destruct (rel_nav D D' R n) as (_ & e1 & e2 & _). now rewrite e1, e2. Qed.
  Lemma rel_next it : children_next (lk D') it = children_next (lk D) it.
  Proof.
    unfold children_next, children_finished. destruct (c_back it) as [b|].
    - destruct (rel_nav D D' R b) as (_ & _ & _ & e & _). rewrite e. destruct (onid_eqb _ _); [reflexivity|].
      destruct (c_next it) as [x|]; [|reflexivity]. destruct (rel_nav D D' R x) as (_ & _ & _ & e' & _). now rewrite e'.
    - reflexivity.
  Qed.
  Lemma rel_list fuel : forall it, children_list fuel (lk D') it = children_list fuel (lk D) it.
  Proof.
    induction fuel as [|f IH]; intros it; [reflexivity|]. cbn [children_list]. rewrite rel_next.
    destruct (children_next (lk D) it) as [[n|] it']; [|reflexivity]. now rewrite IH.
  Qed.
  Lemma rel_collect : forall fuel n d, collect_text fuel D' n d = collect_text fuel D n d.
  Proof.
    induction fuel as [|f IH]; intros n d; [reflexivity|]. cbn [collect_text]. rewrite rel_children, rel_list.
    destruct (children_list (S f) (lk D) (children (lk D) n)) as [l| |]; [|reflexivity|reflexivity]. cbn [bind].
    apply SameProofs.flat_res_ext. intros c. now rewrite rel_text, (rel_element D D' c R), IH.
  Qed.
End S.

Lemma set_plain_sim n a D D' : rel D D' -> link_target (a_value a) = None ->
  same_outcome (fun E E' => rel E E' /\ fresh E = fresh D /\ exists_node D n) (set_attribute n a D) (set_attribute n a D').
Proof.
  intros R Ha. destruct (is_element D n) eqn:He.
  - pose proof (element_exists D n (rl_reach _ _ R) He) as Hn.
    assert (L : legal (OSetAttribute n a) D) by (split; [cbn [handles]; rewrite Ha; intros m [<-|[]]; exact Hn|exact Logic.I]).
    pose proof (set_attribute_sim n a D D' R L) as S. pose proof (set_cases D n a (rl_reach _ _ R) He) as C.
    assert (Er : refused D n a = None) by (unfold refused; now rewrite Ha). rewrite Er in C. destruct C as (E & C & N & _). rewrite C in S |- *.
    destruct (set_attribute n a D'); try contradiction. split; [exact S|]. split; [apply N|exact Hn].
  - unfold set_attribute, set_attribute_checked. rewrite (rel_element D D' n R), He. exact Logic.I.
Qed.
Lemma text_sim n v v' D D' : rel D D' -> is_text D n = true -> v' = v -> rel (text_mut n v D) (text_mut n v' D').
Proof.
  intros R Ht ->. apply (text_mut_sim n v D D' R). split; [|exact Logic.I]. intros m [<-|[]].
  apply (text_exists D n (rl_reach _ _ R) Ht).
Qed.

(* ---- the state: the document and the marked nodes, which exist *)
Definition trel (K : nat) (s s' : tstate) : Prop :=
  rel (fst s) (fst s') /\ snd s' = snd s /\ fresh (fst s) = K /\ Forall (fun n => n < K) (snd s).
Definition drel (K : nat) (D D' : dom) : Prop := rel D D' /\ fresh D = K.

Lemma get_space_sim K n m s s' : trel K s s' ->
  same_outcome (fun r r' => fst r' = fst r /\ trel K (snd r) (snd r')) (get_xmlspace n m s) (get_xmlspace n m s').
Proof.
  intros (R & E & Ef & Fa). unfold get_xmlspace. rewrite (rel_value _ _ R).
  assert (Go : same_outcome (fun r r' => fst r' = fst r /\ trel K (snd r) (snd r'))
    (s <- set_xmlspace n m s ;; Ok (m, s)) (s <- set_xmlspace n m s' ;; Ok (m, s))).
  { apply (outcome_bind (trel K)); [|intros a b H; split; [reflexivity|exact H]]. unfold set_xmlspace.
    eapply outcome_bind; [apply set_plain_sim; [exact R|reflexivity]|]. intros a b (Ra & Fe & Hn). split; [exact Ra|].
    cbn [fst snd]. split; [now rewrite E|]. split; [congruence|]. apply Forall_app. split; [exact Fa|]. constructor; [|constructor].
    unfold exists_node in Hn. congruence. }
  assert (Stay : forall x : xmlspace, same_outcome (fun r r' => fst r' = fst r /\ trel K (snd r) (snd r')) (Ok (x, s)) (Ok (x, s'))).
  { intros x. split; [reflexivity|]. now split. }
  destruct (attrs_get_value (attributes (fst s) n) (QId A_Space)) as [v|]; [|exact Go]. destruct v; try exact Go. apply Stay.
Qed.
Lemma trim_child_sim K xs c s s' : trel K s s' -> same_outcome (trel K) (trim_child xs c s) (trim_child xs c s').
Proof.
  intros T. pose proof T as (R & E & Ef & Fa). unfold trim_child. rewrite (rel_text _ _ R). destruct (is_text (fst s) c) eqn:Ht; [|exact T].
  unfold t_links. destruct (rel_nav _ _ R c) as (e & _). rewrite e. destruct (parent (lk (fst s)) c) as [p|]; [|exact Logic.I]. cbn [unwrap bind].
  pose proof (get_space_sim K p xs s s' T) as G.
  destruct (get_xmlspace p xs s) as [r| |], (get_xmlspace p xs s') as [r'| |]; try contradiction; try exact Logic.I. cbn [bind].
  destruct G as (G1 & R1 & E1 & Ef1 & Fa1). rewrite G1, (rel_words _ _ R1).
  assert (L : legal (OSetText c (trim (text_of (fst (snd r)) c) (fst r))) (fst (snd r))).
  { split; [|exact Logic.I]. intros m [<-|[]]. unfold exists_node. rewrite Ef1, <- Ef.
    apply (text_exists (fst s) c (rl_reach _ _ R) Ht). }
  pose proof (set_text_sim c _ _ _ R1 L) as S. cbn [step] in S. unfold set_text in *.
  destruct (is_element (fst (snd r)) c), (is_element (fst (snd r')) c); try contradiction; try exact Logic.I.
  cbn [bind same_outcome] in *. split; [exact S|]. cbn [fst snd]. split; [exact E1|]. split; [exact Ef1|exact Fa1].
Qed.
Lemma for_descendants_sim K (body : nid -> tstate -> res tstate) :
  (forall n s s', trel K s s' -> same_outcome (trel K) (body n s) (body n s')) ->
  forall fuel it s s', trel K s s' -> same_outcome (trel K) (for_descendants t_links fuel body it s) (for_descendants t_links fuel body it s').
Proof.
  intros Hb. induction fuel as [|f IH]; intros it s s' T; [exact Logic.I|]. cbn [for_descendants]. unfold t_links at 1 3.
  rewrite (descendants_sim _ _ (proj1 T)). destruct (descendants_next (S f) (lk (fst s)) it) as [[[n|] it']| |]; try exact Logic.I; [|exact T].
  cbn [bind]. eapply outcome_bind; [now apply Hb|]. intros a b H. now apply IH.
Qed.
Lemma for_children_sim K (body : nid -> tstate -> res tstate) :
  (forall n s s', trel K s s' -> same_outcome (trel K) (body n s) (body n s')) ->
  forall fuel it s s', trel K s s' -> same_outcome (trel K) (for_children t_links fuel body it s) (for_children t_links fuel body it s').
Proof.
  intros Hb. induction fuel as [|f IH]; intros it s s' T; [exact Logic.I|]. cbn [for_children]. unfold t_links at 1 3.
  rewrite (rel_next _ _ (proj1 T)). destruct (children_next (lk (fst s)) it) as [[n|] it']; [|exact T].
  eapply outcome_bind; [now apply Hb|]. intros a b H. now apply IH.
Qed.

Lemma cut_first_sim K n D D' : drel K D D' -> is_text D n = true ->
  same_outcome (drel K) (cut_first n D) (cut_first n D').
Proof.
  intros (R & Ef) Ht. unfold cut_first. rewrite (rel_words _ _ R). destruct (remove_first (text_of D n)); try exact Logic.I.
  cbn [bind same_outcome]. split; [now apply text_sim|exact Ef].
Qed.
Lemma cut_last_sim K n D D' : drel K D D' -> is_text D n = true -> drel K (cut_last n D) (cut_last n D').
Proof. intros (R & Ef) Ht. unfold cut_last. split; [apply text_sim; [exact R|exact Ht|now rewrite (rel_words _ _ R)]|exact Ef]. Qed.
Lemma keep_text n v m D : is_text (text_mut n v D) m = is_text D m.
Proof.
  unfold is_text, node_type, text_mut, modify, with_dt. cbn [dt]. destruct (Nat.eq_dec m n) as [->|H]; [now rewrite upd_same|now rewrite upd_other].
Qed.
Lemma cut_first_text n D E m : cut_first n D = Ok E -> is_text E m = is_text D m.
Proof. unfold cut_first. destruct (remove_first (text_of D n)); try discriminate. cbn [bind]. intros [= <-]. apply keep_text. Qed.

Lemma single_sim K n xs D D' : drel K D D' -> is_text D n = true -> same_outcome (drel K) (single_text n xs D) (single_text n xs D').
Proof.
  intros T Ht. unfold single_text. destruct (is_default xs); [|exact T]. rewrite (rel_words _ _ (proj1 T)). cbv zeta.
  destruct (length (utf8 (text_of D n))) as [|[|k]]; [exact T| |].
  - destruct (is_space _); [|exact T]. split; [apply text_sim; [apply T|exact Ht|reflexivity]|]. apply T.
  - assert (G : same_outcome (fun E E' => drel K E E' /\ is_text E n = true)
      (if is_space (first_byte (text_of D n)) then cut_first n D else Ok D)
      (if is_space (first_byte (text_of D n)) then cut_first n D' else Ok D')).
    { destruct (is_space _); [|now split]. pose proof (cut_first_sim K n D D' T Ht) as C. pose proof (cut_first_text n D) as X.
      destruct (cut_first n D), (cut_first n D'); try contradiction; try exact Logic.I. split; [exact C|]. now rewrite (X _ n eq_refl). }
    eapply outcome_bind; [exact G|]. intros a b (Ta & Ha). cbn [same_outcome]. destruct (is_space (last_byte _)); [now apply cut_last_sim|exact Ta].
Qed.

(* both nodes stay text nodes *)
Definition prel (K : nat) (n1 n2 : nid) (D D' : dom) : Prop := drel K D D' /\ is_text D n1 = true /\ is_text D n2 = true.
Lemma pcut_first K n1 n2 n D D' : prel K n1 n2 D D' -> n = n1 \/ n = n2 -> same_outcome (prel K n1 n2) (cut_first n D) (cut_first n D').
Proof.
  intros (T & H1 & H2) Hn. assert (Ht : is_text D n = true) by (destruct Hn; congruence).
  pose proof (cut_first_sim K n D D' T Ht) as C. pose proof (cut_first_text n D) as X.
  destruct (cut_first n D), (cut_first n D'); try contradiction; try exact Logic.I. split; [exact C|]. now rewrite !(X _ _ eq_refl).
Qed.
Lemma pcut_last K n1 n2 n D D' : prel K n1 n2 D D' -> n = n1 \/ n = n2 -> prel K n1 n2 (cut_last n D) (cut_last n D').
Proof.
  intros (T & H1 & H2) Hn. assert (Ht : is_text D n = true) by (destruct Hn; congruence).
  split; [now apply cut_last_sim|]. unfold cut_last. now rewrite !keep_text.
Qed.
Lemma border_sim K n1 n2 d1 d2 x1 x2 c2 c3 D D' : prel K n1 n2 D D' ->
  same_outcome (prel K n1 n2) (fix_border n1 n2 d1 d2 x1 x2 c2 c3 D) (fix_border n1 n2 d1 d2 x1 x2 c2 c3 D').
Proof.
  intros T. unfold fix_border. destruct (is_space c2 && is_space c3); [|exact T]. destruct (Nat.ltb d1 d2).
  - destruct (is_default x2); [|exact T]. apply pcut_first; [exact T|now right].
  - destruct (is_default x1 && is_default x2); [apply pcut_last; [exact T|now left]|].
    destruct (negb (is_default x1) && is_default x2); [|exact T]. apply pcut_first; [exact T|now right].
Qed.
Lemma ends_sim K n1 n2 f l x1 x2 c1 c4 D D' : prel K n1 n2 D D' ->
  same_outcome (prel K n1 n2) (fix_ends f l n1 n2 x1 x2 c1 c4 D) (fix_ends f l n1 n2 x1 x2 c1 c4 D').
Proof.
  intros T. unfold fix_ends. rewrite !(rel_words _ _ (proj1 (proj1 T))).
  destruct (f && is_space c1 && is_default x1 && negb (is_empty (text_of D n1))); [apply pcut_first; [exact T|now left]|].
  destruct (l && is_space c4 && negb (is_empty (text_of D n2)) && is_default x2); [|exact T]. apply pcut_last; [exact T|now right].
Qed.
Lemma last_sim K n1 n2 l c2 D D' : prel K n1 n2 D D' -> prel K n1 n2 (fix_last l n1 n2 c2 D) (fix_last l n1 n2 c2 D').
Proof.
  intros T. unfold fix_last. rewrite !(rel_words _ _ (proj1 (proj1 T))). destruct (_ && _); [|exact T]. apply pcut_last; [exact T|now left].
Qed.
(* types are kept by the marks *)
Lemma get_space_types n m s r : reachable (fst s) -> get_xmlspace n m s = Ok r -> forall x, is_text (fst (snd r)) x = is_text (fst s) x.
Proof.
  intros H. unfold get_xmlspace. assert (Go : (s <- set_xmlspace n m s ;; Ok (m, s)) = Ok r -> forall x, is_text (fst (snd r)) x = is_text (fst s) x).
  { unfold set_xmlspace. intros E x. destruct (is_element (fst s) n) eqn:He.
    - pose proof (set_cases (fst s) n (mkAttr (QId A_Space) (VString (space_value m))) H He) as C. cbn [refused a_value link_target] in C.
      unfold refused in C. cbn [a_value link_target] in C. destruct C as (D1 & C & N & _). rewrite C in E. cbn [bind] in E. injection E as <-.
      cbn [fst snd]. unfold is_text. now rewrite (sn_type _ _ N).
    - unfold set_attribute, set_attribute_checked in E. rewrite He in E. discriminate. }
  destruct (attrs_get_value _ _) as [v|]; [|exact Go]. destruct v; try exact Go. intros [= <-] x. reflexivity.
Qed.
Definition plist (s : tstate) (last : option nid) (l : list (nid * nat)) : Prop :=
  (forall n, last = Some n -> is_text (fst s) n = true) /\ Forall (fun p => is_text (fst s) (fst p) = true) l.
Lemma pair_sim K xs f l p1 p2 last rest s s' : trel K s s' -> plist s last (p1 :: p2 :: rest) ->
  same_outcome (fun r r' => fst r' = fst r /\ trel K (snd r) (snd r') /\ plist (snd r) (fst r) (p2 :: rest))
    (pair_step xs f l p1 p2 last s) (pair_step xs f l p1 p2 last s').
Proof.
  intros T (Hl & Hp). pose proof T as (R & E & Ef & Fa). unfold pair_step. rewrite (rel_words _ _ R). cbv zeta.
  set (node1 := if is_empty (text_of (fst s) (fst p1)) then match last with Some n => n | None => fst p1 end else fst p1).
  inversion Hp as [|? ? h1 Hp']; subst. inversion Hp' as [|? ? h2 Hr]; subst.
  assert (H1 : is_text (fst s) node1 = true).
  { unfold node1. destruct (is_empty _); [|exact h1]. destruct last as [n|]; [now apply Hl|exact h1]. }
  clearbody node1. unfold t_links at 1 3. destruct (rel_nav _ _ R node1) as (e & _). rewrite e.
  destruct (parent (lk (fst s)) node1) as [q1|]; [|exact Logic.I]. cbn [unwrap bind].
  pose proof (get_space_sim (fresh (fst s)) q1 xs s s' T) as G. pose proof (get_space_types q1 xs s) as Y.
  destruct (get_xmlspace q1 xs s) as [r1| |], (get_xmlspace q1 xs s') as [r1'| |]; try contradiction; try exact Logic.I. cbn [bind].
  destruct G as (G1 & T1). specialize (Y r1 (rl_reach _ _ R) eq_refl). rewrite G1. clear G1 e.
  unfold t_links. destruct (rel_nav _ _ (proj1 T1) (fst p2)) as (e & _). rewrite e.
  destruct (parent (lk (fst (snd r1))) (fst p2)) as [q2|]; [|exact Logic.I]. cbn [unwrap bind].
  pose proof (get_space_sim (fresh (fst s)) q2 xs (snd r1) (snd r1') T1) as G. pose proof (get_space_types q2 xs (snd r1)) as Z.
  destruct (get_xmlspace q2 xs (snd r1)) as [r2| |], (get_xmlspace q2 xs (snd r1')) as [r2'| |]; try contradiction; try exact Logic.I. cbn [bind].
  destruct G as (G2 & T2). specialize (Z r2 (rl_reach _ _ (proj1 T1)) eq_refl). rewrite G2, !(rel_words _ _ (proj1 T2)).
  assert (Same : forall x, is_text (fst (snd r2)) x = is_text (fst s) x) by (intros x; now rewrite Z, Y).
  assert (P : prel (fresh (fst s)) node1 (fst p2) (fst (snd r2)) (fst (snd r2'))).
  { split; [split; [apply T2|apply T2]|]. now rewrite !Same. }
  assert (Bt : forall n1 n2 a b x1 x2 c2 c3 D E, fix_border n1 n2 a b x1 x2 c2 c3 D = Ok E -> forall x, is_text E x = is_text D x).
  { intros n1 n2 a b x1 x2 c2 c3 D0 E0. unfold fix_border, cut_last. intros H x.
    destruct (_ && _); [|injection H as <-; reflexivity]. destruct (Nat.ltb a b).
    - destruct (is_default x2); [now apply (cut_first_text _ _ _ x) in H|injection H as <-; reflexivity].
    - destruct (_ && _); [injection H as <-; apply keep_text|]. destruct (_ && _); [now apply (cut_first_text _ _ _ x) in H|injection H as <-; reflexivity]. }
  assert (Et : forall f l n1 n2 x1 x2 c1 c4 D E, fix_ends f l n1 n2 x1 x2 c1 c4 D = Ok E -> forall x, is_text E x = is_text D x).
  { intros f0 l0 n1 n2 x1 x2 c1 c4 D0 E0. unfold fix_ends, cut_last. intros H x.
    destruct (_ && _); [now apply (cut_first_text _ _ _ x) in H|]. destruct (_ && _); [injection H as <-; apply keep_text|injection H as <-; reflexivity]. }
  match goal with |- same_outcome _ (bind (fix_border ?a ?b ?c ?d ?x ?y ?u ?v ?D1) _) (bind (fix_border _ _ _ _ _ _ _ _ ?D2) _) =>
    pose proof (border_sim (fresh (fst s)) a b c d x y u v D1 D2 P) as B; pose proof (Bt a b c d x y u v D1) as B' end.
  destruct (fix_border _ _ _ _ _ _ _ _ (fst (snd r2))) as [D1| |], (fix_border _ _ _ _ _ _ _ _ (fst (snd r2'))) as [D1'| |]; try contradiction; try exact Logic.I.
  cbn [bind]. specialize (B' D1 eq_refl).
  match goal with |- same_outcome _ (bind (fix_ends ?a ?b ?c ?d ?x ?y ?u ?v ?D1) _) (bind (fix_ends _ _ _ _ _ _ _ _ ?D2) _) =>
    pose proof (ends_sim (fresh (fst s)) c d a b x y u v D1 D2 B) as C; pose proof (Et a b c d x y u v D1) as C' end.
  destruct (fix_ends _ _ _ _ _ _ _ _ D1) as [D2| |], (fix_ends _ _ _ _ _ _ _ _ D1') as [D2'| |]; try contradiction; try exact Logic.I.
  cbn [bind]. specialize (C' D2 eq_refl).
  pose proof (last_sim (fresh (fst s)) node1 (fst p2) l (last_byte (text_of (fst (snd r2)) node1)) D2 D2' C) as L.
  assert (L' : forall x, is_text (fix_last l node1 (fst p2) (last_byte (text_of (fst (snd r2)) node1)) D2) x = is_text (fst s) x).
  { intros x. unfold fix_last, cut_last. destruct (_ && _); rewrite ?keep_text, C', B'; apply Same. }
  cbn [same_outcome fst snd]. rewrite (rel_words _ _ (proj1 (proj1 L))). split; [reflexivity|]. split.
  - split; [apply L|]. cbn [fst snd]. split; [apply T2|]. split; [apply L|]. apply T2.
  - split.
    + intros n. destruct (negb _); [intros [= <-]|intros Hn]; cbn [fst]; rewrite L'; [exact H1|now apply Hl].
    + apply Forall_forall. intros p Hin. cbn [fst]. rewrite L'. rewrite Forall_forall in Hp'. now apply Hp'.
Qed.
Lemma pair_loop_sim K xs : forall rest f p1 last s s', trel K s s' -> plist s last (p1 :: rest) ->
  same_outcome (trel K) (pair_loop xs f p1 rest last s) (pair_loop xs f p1 rest last s').
Proof.
  induction rest as [|p2 rest IH]; intros f p1 last s s' T H; [exact T|]. cbn [pair_loop].
  eapply outcome_bind; [now apply (pair_sim K xs f _ p1 p2 last rest)|]. intros a b (e & Ta & Ha). rewrite e. now apply IH.
Qed.
Lemma collected_texts D : forall fuel n d l, collect_text fuel D n d = Ok l -> Forall (fun p => is_text D (fst p) = true) l.
Proof.
  induction fuel as [|f IH]; intros n d l; [discriminate|]. cbn [collect_text].
  destruct (children_list (S f) (lk D) (children (lk D) n)) as [cs| |]; try discriminate. cbn [bind]. revert l.
  induction cs as [|c cs IHc]; intros l E; [injection E as <-; constructor|]. cbn [flat_res] in E.
  destruct (is_text D c) eqn:Ec.
  - cbn [bind] in E. fold (flat_res (fun child => if is_text D child then Ok [(child, d)] else if is_element D child then collect_text f D child (S d) else Ok [])) in E.
    destruct (flat_res _ cs) as [l2| |]; try discriminate. injection E as <-. constructor; [exact Ec|now apply IHc].
  - destruct (is_element D c).
    + destruct (collect_text f D c (S d)) as [l1| |] eqn:E1; try discriminate. cbn [bind] in E.
      fold (flat_res (fun child => if is_text D child then Ok [(child, d)] else if is_element D child then collect_text f D child (S d) else Ok [])) in E.
      destruct (flat_res _ cs) as [l2| |]; try discriminate. injection E as <-. apply Forall_app. split; [now apply (IH c (S d))|now apply IHc].
    + cbn [bind] in E. fold (flat_res (fun child => if is_text D child then Ok [(child, d)] else if is_element D child then collect_text f D child (S d) else Ok [])) in E.
      destruct (flat_res _ cs) as [l2| |]; try discriminate. injection E as <-. now apply IHc.
Qed.
Lemma group_sim K n xs s s' : trel K s s' -> same_outcome (trel K) (prepare_text_children n xs s) (prepare_text_children n xs s').
Proof.
  intros T. unfold prepare_text_children, enough. rewrite (rl_fresh _ _ (proj1 T)). cbv zeta.
  eapply outcome_bind; [apply (for_descendants_sim K); [intros c a b; apply trim_child_sim|exact T]|].
  intros a b Ta. rewrite (rel_collect _ _ (proj1 Ta)). pose proof (collected_texts (fst a)) as C.
  destruct (collect_text _ (fst a) n 0) as [l| |] eqn:E; try exact Logic.I. cbn [bind]. apply C in E.
  destruct l as [|p [|p2 rest]]; [exact Ta| |].
  - inversion E as [|? ? Hp _]; subst. eapply outcome_bind; [apply (single_sim K); [split; apply Ta|exact Hp]|].
    intros D1 D2 (R1 & F1). split; [exact R1|]. cbn [fst snd]. split; [apply Ta|]. split; [exact F1|apply Ta].
  - apply pair_loop_sim; [exact Ta|]. split; [discriminate|exact E].
Qed.
Lemma prepare_rec_sim K : forall fuel n xs s s', trel K s s' -> same_outcome (trel K) (prepare_rec fuel n xs s) (prepare_rec fuel n xs s').
Proof.
  induction fuel as [|f IH]; intros n xs s s' T; [exact Logic.I|]. cbn [prepare_rec]. unfold t_links at 2 4. rewrite (rel_children _ _ (proj1 T)).
  apply for_children_sim; [|exact T]. clear T s s' n. intros n s s' T. rewrite (rel_element _ _ n (proj1 T)).
  destruct (is_element (fst s) n); [|exact T]. eapply outcome_bind; [now apply (get_space_sim K)|]. intros r r' (e & Tr). rewrite e. cbv zeta.
  unfold t_links. destruct (rel_nav _ _ (proj1 Tr) n) as (_ & e1 & _). rewrite e1.
  destruct (first_child (lk (fst (snd r))) n) as [c|]; [|now apply IH]. rewrite (rel_text _ _ (proj1 Tr)).
  destruct (is_text (fst (snd r)) c); [now apply group_sim|now apply IH].
Qed.
Lemma marks_sim K : forall l D D', rel D D' -> fresh D = K -> Forall (fun n => n < K) l -> same_outcome rel (remove_marks l D) (remove_marks l D').
Proof.
  induction l as [|n l IH]; intros D D' R Ef Fa; [exact R|]. cbn [remove_marks]. inversion Fa as [|? ? Hn Fl]; subst.
  assert (L : legal (ORemoveAttribute n (QId A_Space)) D) by (split; [intros m [<-|[]]; exact Hn|exact Logic.I]).
  pose proof (remove_attribute_sim n (QId A_Space) D D' R L) as S.
  destruct (remove_cases D n (QId A_Space) (rl_reach _ _ R)) as (E & C & N & _). rewrite C in S |- *.
  destruct (remove_attribute n (QId A_Space) D') as [E'| |]; try contradiction. cbn [bind]. apply IH; [exact S|apply N|exact Fl].
Qed.
Lemma fair_empty root : fair (ODrain root empty_text).
Proof.
  intros D D' _ _ A x Hx. unfold empty_text, is_text. now rewrite (ak_type _ _ A x Hx), (ak_text _ _ A x Hx).
Qed.
Theorem prepare_text_sim D D' : rel D D' -> same_outcome rel (prepare_text D) (prepare_text D').
Proof.
  intros R. unfold prepare_text, enough. rewrite (rl_fresh _ _ R), (rl_root _ _ R).
  eapply outcome_bind; [apply (prepare_rec_sim (fresh D)); split; [exact R|]; cbn [fst snd]; repeat split; constructor|].
  intros a b (Ra & E & Ef & Fa). rewrite E. eapply outcome_bind; [now apply (marks_sim (fresh D))|].
  intros D1 D1' R1. rewrite (rl_root _ _ R1). eapply outcome_bind; [apply drain_sim; [exact R1|apply fair_empty]|].
  intros r r' (Rr & _). exact Rr.
Qed.
