(* Raw access changes nothing but attributes and users. *)
From Coq Require Import List Bool PeanoNat NArith Lia.
From Verif Require Import Base Ids Links Tree Iter ForestSpec ListFacts TreeProofs ForestFacts
  Data Attrs Slab NodeApi Doc AttrFacts LinkProofs AttrSpec DocSpec RemoveProofs History InvProofs
  HistoryProofs TreeSpec TreeApi ApiProofs WorldProofs Raw RawSpec MixProofs.
Import ListNotations.

Definition strip (d : ndata) : ndata := set_attrs [] (set_linked [] d).
Definition bare_of (E D : dom) : Prop :=
  lk E = lk D /\ fresh E = fresh D /\ droot E = droot D /\ store E = store D /\ forall n, dt E n = strip (dt D n).

Lemma bare_of_iff E D : bare_of E D -> bare E D.
Proof.
  intros (A & B & C & G & H). split; auto; intros n; unfold storage_key, node_type, tag_name, id_of, text_of, attributes, linked_nodes;
    rewrite H; reflexivity.
Qed.

(* only attributes and users change *)
Definition slight (D D' : dom) : Prop :=
  lk D' = lk D /\ fresh D' = fresh D /\ droot D' = droot D /\ store D' = store D /\ forall n, strip (dt D' n) = strip (dt D n).
Lemma slight_refl D : slight D D.
Proof. unfold slight. tauto. Qed.
Lemma slight_trans D1 D2 D3 : slight D1 D2 -> slight D2 D3 -> slight D1 D3.
Proof. intros (A & B & C & G & H) (A' & B' & C' & G' & H'). repeat split; try congruence. Qed.
Lemma slight_modify n g D : (forall d, strip (g d) = strip d) -> slight D (modify n g D).
Proof.
  intros Hg. repeat split. intros m. unfold modify, upd. cbn. destruct (Nat.eqb_spec m n) as [->|]; [apply Hg|reflexivity].
Qed.
Lemma slight_bare E D D' : bare_of E D -> slight D D' -> bare_of E D'.
Proof. intros (A & B & C & G & H) (A' & B' & C' & G' & H'). repeat split; congruence. Qed.

Lemma remove_attribute_slight n x D D' : remove_attribute n x D = Ok D' -> slight D D'.
Proof.
  unfold remove_attribute. destruct (negb _); [intros [= <-]; apply slight_refl|]. intros H. ok_bind H D1 E. injection H as <-.
  apply (slight_trans D D1); [|now apply slight_modify].
  destruct (attrs_get_value _ x) as [v|]; [|injection E as <-; apply slight_refl].
  destruct (link_target v); [|injection E as <-; apply slight_refl]. destruct (position _ _); [|easy].
  unfold borrow_mut in E. destruct (mem _ _); [easy|]. injection E as <-. now apply slight_modify.
Qed.
Lemma set_simple_slight n a D D' : set_simple_attribute n a D = Ok D' -> slight D D'.
Proof.
  unfold set_simple_attribute. destruct (is_link_container _); [easy|]. intros H. ok_bind H D1 E. injection H as <-.
  apply remove_attribute_slight in E. apply (slight_trans D D1); [easy|now apply slight_modify].
Qed.
Lemma set_link_slight n x t fb D r : set_link_attribute n x t fb D = Ok r -> slight D (fst r).
Proof.
  unfold set_link_attribute. destruct (negb _); [intros [= <-]; apply slight_refl|].
  destruct (str_eqb _ _); [intros [= <-]; apply slight_refl|].
  destruct (existsb _ _); [intros [= <-]; apply slight_refl|]. intros H. ok_bind H D1 E. injection H as <-.
  apply remove_attribute_slight in E. cbn [fst]. apply (slight_trans D D1); [easy|].
  eapply slight_trans; now apply slight_modify.
Qed.
Lemma set_checked_slight n a D r : set_attribute_checked n a D = Ok r -> slight D (fst r).
Proof.
  unfold set_attribute_checked. destruct (negb _); [easy|].
  assert (Hs : (D <- set_simple_attribute n a D ;; Ok (D, ROk)) = Ok r -> slight D (fst r)).
  { intros H. ok_bind H D1 E. injection H as <-. now apply set_simple_slight in E. }
  destruct (a_value a); try exact Hs; apply set_link_slight.
Qed.
Lemma set_attribute_slight n a D D' : set_attribute n a D = Ok D' -> slight D D'.
Proof.
  unfold set_attribute. intros H. ok_bind H r E. apply set_checked_slight in E. destruct r as [D1 []]; [|easy].
  now injection H as <-.
Qed.
Lemma remove_all_slight n l : forall D D', remove_all n l D = Ok D' -> slight D D'.
Proof.
  induction l as [|x l IH]; intros D D' H; cbn in H; [injection H as <-; apply slight_refl|]. ok_bind H D1 E.
  apply remove_attribute_slight in E. apply (slight_trans D D1); [easy|now apply IH].
Qed.
Lemma unlink_users_slight n l : forall D D', unlink_users n l D = Ok D' -> slight D D'.
Proof.
  induction l as [|x l IH]; intros D D' H; cbn in H; [injection H as <-; apply slight_refl|]. ok_bind H D1 E.
  apply remove_all_slight in E. apply (slight_trans D D1); [easy|now apply IH].
Qed.
Lemma remove_links_slight n D D' : remove_links n D = Ok D' -> slight D D'.
Proof.
  unfold remove_links. intros H. ok_bind H D1 E. apply remove_all_slight in E. apply (slight_trans D D1); [easy|].
  now apply unlink_users_slight in H.
Qed.
Lemma copy_attrs_slight src e l : forall D D', copy_attrs src e l D = Ok D' -> slight D D'.
Proof.
  induction l as [|a l IH]; intros D D' H; cbn in H; [injection H as <-; apply slight_refl|]. ok_bind H D1 E.
  apply (slight_trans D D1); [|now apply IH].
  destruct (link_target (a_value a)); [destruct (_ && _); [easy|]|]; now apply set_attribute_slight in E.
Qed.

(* ---- the same calls without attributes *)
Lemma bare_alloc E D d r : bare_of E D -> strip d = d -> alloc d D = Ok r -> exists E', alloc d E = Ok (fst r, E') /\ bare_of E' (snd r).
Proof.
  intros (A & B & C & G & H) Hd Ha. unfold alloc in *. rewrite G, B. ok_bind Ha s Es. injection Ha as <-. rewrite Es. cbn [bind fst snd].
  eexists. split; [reflexivity|]. repeat split; cbn; auto; try congruence. intros n. rewrite !upd_eq.
  destruct (Nat.eqb n (fresh D)); [|apply H]. rewrite <- Hd at 1. reflexivity.
Qed.
Lemma bare_remove_finish E D n D' : bare_of E D -> remove_finish n D = Ok D' -> exists E', remove_finish n E = Ok E' /\ bare_of E' D'.
Proof.
  intros (A & B & C & G & H) Hr. unfold remove_finish in *. rewrite A. ok_bind Hr L El. rewrite El. cbn [bind]. cbv zeta in *.
  assert (Hk : storage_key (with_lk L E) n = storage_key (with_lk L D) n) by (unfold storage_key; cbn; now rewrite H).
  rewrite Hk. destruct (storage_key (with_lk L D) n) as [k|].
  - change (store (modify n (set_key None) (with_lk L E))) with (store E). change (store (modify n (set_key None) (with_lk L D))) with (store D) in Hr.
    rewrite G. ok_bind Hr s Es. injection Hr as <-. rewrite Es. cbn [bind]. eexists. split; [reflexivity|]. repeat split; cbn; auto.
    intros m. rewrite !upd_eq. destruct (Nat.eqb m n); [|apply H]. now rewrite H.
  - injection Hr as <-. eexists. split; [reflexivity|]. repeat split; cbn; auto.
    intros m. rewrite !upd_eq. destruct (Nat.eqb m n); [|apply H]. now rewrite H.
Qed.
Lemma bare_remove_links E D n : bare_of E D -> remove_links n E = Ok E.
Proof.
  intros (_ & _ & _ & _ & H). unfold remove_links, attributes. rewrite H. cbn. unfold linked_nodes. rewrite H. reflexivity.
Qed.
Lemma bare_for_children (body body' : nid -> dom -> res dom) :
  (forall c E D D', bare_of E D -> body c D = Ok D' -> exists E', body' c E = Ok E' /\ bare_of E' D') ->
  forall fuel it E D D', bare_of E D -> for_children lk fuel body it D = Ok D' ->
  exists E', for_children lk fuel body' it E = Ok E' /\ bare_of E' D'.
Proof.
  intros Hb. induction fuel as [|fuel IH]; intros it E D D' B H; [easy|]. cbn [for_children] in *. pose proof B as (A & _). rewrite A.
  destruct (children_next (lk D) it) as [[c|] it']; [|injection H as <-; now exists E].
  ok_bind H D1 E1. destruct (Hb c E D D1 B E1) as (E2 & H2 & B2). rewrite H2. cbn [bind]. now apply (IH it' E2 D1).
Qed.
Lemma bare_remove_rec fuel : forall n E D D', bare_of E D -> remove_rec fuel n D = Ok D' ->
  exists E', remove_rec fuel n E = Ok E' /\ bare_of E' D'.
Proof.
  induction fuel as [|fuel IH]; intros n E D D' B H; [easy|]. cbn [remove_rec] in *. ok_bind H D1 E1. ok_bind H D2 E2.
  rewrite (bare_remove_links E D n B). cbn [bind].
  pose proof (slight_bare E D D1 B (remove_links_slight n D D1 E1)) as B1.
  assert (Hc : children (lk E) n = children (lk D1) n) by (destruct B1 as (-> & _); reflexivity).
  rewrite Hc. destruct (bare_for_children (remove_rec fuel) (remove_rec fuel) IH fuel _ E D1 D2 B1 E2) as (E3 & H3 & B3).
  rewrite H3. cbn [bind]. now apply (bare_remove_finish E3 D2).
Qed.
Lemma bare_remove_node E D n D' : bare_of E D -> remove_node n D = Ok D' -> exists E', remove_node n E = Ok E' /\ bare_of E' D'.
Proof.
  intros B H. unfold remove_node in *. replace (enough E) with (enough D); [now apply (bare_remove_rec (enough D) n E D)|].
  unfold enough. destruct B as (_ & -> & _). reflexivity.
Qed.
Lemma bare_modify E D n g : bare_of E D -> (forall d, strip (g d) = g (strip d)) -> bare_of (modify n g E) (modify n g D).
Proof.
  intros (A & B & C & G & H) Hg. repeat split; cbn; auto. intros m. rewrite !upd_eq. destruct (Nat.eqb m n); [|apply H].
  now rewrite Hg, H.
Qed.
Lemma bare_with_lk E D L : bare_of E D -> bare_of (with_lk L E) (with_lk L D).
Proof. intros (A & B & C & G & H). now repeat split. Qed.

(* ---- reached without attributes *)
Definition simple (D : dom) : Prop := exists E, reachable E /\ bare_of E D.
Lemma simple_slight D D' : simple D -> slight D D' -> simple D'.
Proof. intros (E & R & B) Hs. exists E. split; [easy|]. now apply (slight_bare E D). Qed.
Lemma simple_bound D n : simple D -> n < fresh D -> olt (fresh D) (l_next (lk D) n) /\ olt (fresh D) (l_first (lk D) n) .
Proof.
  intros (E & R & (A & B & _)) Hn. destruct (bd_links E (reachable_bounded E R) n) as (_ & _ & H1 & _ & _ & H2).
  rewrite A, B in *. now split.
Qed.
Lemma simple_first D n : simple D -> olt (fresh D) (l_first (lk D) n).
Proof. intros (E & R & (A & B & _)). destruct (bd_links E (reachable_bounded E R) n) as (_ & _ & H1 & _ & _ & H2). now rewrite A, B in *. Qed.
Lemma simple_next D n : simple D -> olt (fresh D) (l_next (lk D) n).
Proof. intros (E & R & (A & B & _)). destruct (bd_links E (reachable_bounded E R) n) as (_ & _ & H1 & _ & _ & H2). now rewrite A, B in *. Qed.
Lemma simple_step o E D E' D' : reachable E -> bare_of E D -> (forall n, In n (handles o) -> n < fresh D) -> plain_edit o E ->
  step o E = Ok E' -> bare_of E' D' -> simple D'.
Proof.
  intros R B Hn Hp Hs B'. exists E'. split; [|easy]. apply (reach_step E o); [easy| |easy]. split; [|easy].
  intros n H. unfold exists_node. destruct B as (_ & -> & _). now apply Hn.
Qed.
Lemma simple_remove n D D' : simple D -> n < fresh D -> remove_node n D = Ok D' -> simple D'.
Proof.
  intros (E & R & B) Hn H. destruct (bare_remove_node E D n D' B H) as (E' & H' & B').
  apply (simple_step (ORemoveNode n) E D E' D'); cbn; try easy. intros m [<-|[]]. easy.
Qed.
Lemma remove_fresh n D D' : remove_node n D = Ok D' -> fresh D' = fresh D.
Proof.
  unfold remove_node. generalize (enough D). intros fuel. revert n D D'. induction fuel as [|fuel IH]; intros n D D' H; [easy|].
  cbn [remove_rec] in H. ok_bind H D1 E1. ok_bind H D2 E2. apply remove_links_slight in E1. destruct E1 as (_ & E1 & _).
  assert (H2 : fresh D2 = fresh D1).
  { eapply (for_children_inv lk (fun X => fresh X = fresh D1)); [|reflexivity|exact E2]. intros c s s' Hs Hb. rewrite <- Hs. now apply (IH c). }
  unfold remove_finish in H. ok_bind H L El. cbv zeta in H. destruct (storage_key _ n); [ok_bind H s Es|]; injection H as <-; cbn; congruence.
Qed.
Lemma simple_drain f fuel : forall n s s', simple (fst s) -> olt (fresh (fst s)) n -> drain_loop fuel f n s = Ok s' ->
  simple (fst s') /\ fresh (fst s') = fresh (fst s).
Proof.
  induction fuel as [|fuel IH]; intros n [D k] s' T Hn H; [easy|]. cbn [drain_loop fst snd] in *.
  destruct n as [n|]; [|injection H as <-; easy]. specialize (Hn n eq_refl). destruct (f D n).
  - ok_bind H D1 E. pose proof (simple_remove n D D1 T Hn E) as T1. pose proof (remove_fresh n D D1 E) as F1.
    destruct (IH (next_sibling (lk D) n) (D1, S k) s' T1) with (2 := H) as (T2 & F2).
    + cbn [fst]. rewrite F1. exact (simple_next D n T).
    + split; [easy|]. cbn in F2. congruence.
  - ok_bind H s1 E.
    assert (H1 : simple (fst s1) /\ fresh (fst s1) = fresh D).
    { destruct (has_children (lk D) n); [|injection E as <-; easy]. apply (IH _ (D, k) s1 T) in E; [easy|]. exact (simple_first D n T). }
    destruct H1 as (T1 & F1). destruct (IH (next_sibling (lk (fst s1)) n) s1 s' T1) with (2 := H) as (T2 & F2); [exact (simple_next (fst s1) n T1)|].
    split; [easy|congruence].
Qed.
Lemma simple_alloc o d D r : simple D -> (forall E, step o E = (r <- alloc d E ;; Ok (snd r))) -> handles o = [] -> (forall E, plain_edit o E) ->
  strip d = d -> alloc d D = Ok r -> simple (snd r).
Proof.
  intros (E & R & B) Ho Hh Hp Hd H. destruct (bare_alloc E D d r B Hd H) as (E' & H' & B').
  apply (simple_step o E D E' (snd r)); try easy; [rewrite Hh; easy|]. rewrite Ho, H'. reflexivity.
Qed.
Lemma simple_create_element t D r : simple D -> create_element t D = Ok r -> simple (snd r).
Proof.
  intros T H. unfold create_element in H. destruct (empty_tag t) eqn:Et; [easy|].
  apply (simple_alloc (OCreateElement t) (new_data NElement t []) D r T); try easy.
  intros E. cbn [step]. unfold create_element. now rewrite Et.
Qed.
Lemma simple_create_node ty s D r : simple D -> create_node ty s D = Ok r -> simple (snd r).
Proof.
  intros T H. unfold create_node in H. destruct (_ || _) eqn:Et; [easy|].
  apply (simple_alloc (OCreateNode ty s) (new_data ty (QName []) s) D r T); try easy.
  intros E. cbn [step]. unfold create_node. now rewrite Et.
Qed.
Lemma simple_copy_node n D r : simple D -> copy_node n D = Ok r -> simple (snd r).
Proof.
  intros T. unfold copy_node. destruct (node_type D n); try now apply simple_create_node. intros H. ok_bind H r1 E. ok_bind H D2 E2.
  injection H as <-. apply (simple_create_element _ D r1 T) in E. cbn [snd]. apply (simple_slight (snd r1)); [easy|]. now apply copy_attrs_slight in E2.
Qed.
Lemma simple_links o f D L : simple D -> (forall E, step o E = on_links f E) -> (forall n, In n (handles o) -> n < fresh D) ->
  (forall E, plain_edit o E) -> f (lk D) = Ok L -> simple (with_lk L D).
Proof.
  intros (E & R & B) Ho Hn Hp Hf. apply (simple_step o E D (with_lk L E) (with_lk L D)); try easy.
  - rewrite Ho. unfold on_links. destruct B as (-> & _). now rewrite Hf.
  - now apply bare_with_lk.
Qed.
Lemma simple_deep fuel : forall p n D D', simple D -> p < fresh D -> make_deep_copy fuel p n D = Ok D' -> simple D' /\ fresh D <= fresh D'.
Proof.
  induction fuel as [|fuel IH]; intros p n D D' T Hp H; [easy|]. cbn [make_deep_copy] in H.
  eapply (for_children_inv lk (fun X => simple X /\ fresh D <= fresh X)); [|split; [exact T|apply le_n]|exact H].
  intros c s s' (Ts & Hle) Hb. cbv beta in Hb. ok_bind Hb r E. destruct (copy_node_keeps c s r E) as (Hn & Hl & Hf).
  ok_bind Hb L' E2. pose proof (simple_copy_node c s r Ts E) as T1.
  assert (T2 : simple (with_lk L' (snd r))).
  { apply (simple_links (OAppend p (fst r)) (append [] p (fst r))); try easy. cbn. unfold nid in *. intros m [<-|[<-|[]]]; lia. }
  destruct (has_children _ c).
  - apply IH in Hb; [|easy|cbn; unfold nid in *; lia]. cbn in Hb. split; [easy|]. unfold nid in *. lia.
  - injection Hb as <-. split; [easy|]. cbn. unfold nid in *. lia.
Qed.

Theorem simple_call o D D' : simple D -> (forall n, In n (handles o) -> exists_node D n) -> step o D = Ok D' -> simple D'.
Proof.
  intros T Hn H. unfold exists_node in Hn.
  assert (Hm : forall n g, In n (handles o) -> (forall d, strip (g d) = g (strip d)) ->
    (forall E, bare_of E D -> step o E = Ok (modify n g E)) -> (forall E, plain_edit o E) -> simple (modify n g D)).
  { intros n g Hin Hg Ho Hp. destruct T as (E & R & B). apply (simple_step o E D (modify n g E) (modify n g D)); try easy; auto.
    now apply bare_modify. }
  assert (Hel : forall E n, bare_of E D -> is_element E n = is_element D n).
  { intros E n B. unfold is_element, node_type. destruct B as (_ & _ & _ & _ & ->). reflexivity. }
  destruct o; cbn [step handles] in *.
  - ok_bind H r E. injection H as <-. now apply (simple_create_element t D).
  - ok_bind H r E. injection H as <-. now apply (simple_create_node ty s D).
  - apply (simple_remove n D); auto with datatypes.
  - ok_bind H r E. injection H as <-. unfold drain in E. apply (simple_drain f) in E; [apply E|easy|]. exact (simple_first D root T).
  - ok_bind H r E. injection H as <-. now apply (simple_copy_node n D).
  - ok_bind H r E. injection H as <-. unfold copy_node_deep in E. ok_bind E r1 E1. ok_bind E D2 E2. injection E as <-. cbn [snd].
    destruct (copy_node_keeps n D r1 E1) as (A & B & C).
    apply (simple_deep _ (fst r1) n (snd r1) D2) in E2; [apply E2|now apply (simple_copy_node n D)|].
    rewrite A, C. apply le_n.
  - unfold on_links in H. ok_bind H L' E. injection H as <-. now apply (simple_links (ODetach n) (detach [] n)).
  - unfold on_links in H. ok_bind H L' E. injection H as <-. now apply (simple_links (OAppend p n) (append [] p n)).
  - unfold on_links in H. ok_bind H L' E. injection H as <-. now apply (simple_links (OPrepend p n) (prepend [] p n)).
  - unfold on_links in H. ok_bind H L' E. injection H as <-. now apply (simple_links (OInsertAfter a n) (insert_after [] a n)).
  - unfold on_links in H. ok_bind H L' E. injection H as <-. now apply (simple_links (OInsertBefore a n) (insert_before [] a n)).
  - unfold set_text in *. destruct (is_element D n) eqn:Ee; [easy|]. injection H as <-. apply Hm; auto with datatypes; try easy.
    intros E B. now rewrite (Hel E n B), Ee.
  - injection H as <-. apply Hm; auto with datatypes; try easy.
  - unfold set_id in *. destruct (is_element D n) eqn:Ee; [|easy]. injection H as <-. apply Hm; auto with datatypes; try easy.
    intros E B. now rewrite (Hel E n B), Ee.
  - unfold set_tag_name in *. destruct (is_element D n) eqn:Ee; [|easy]. cbn [negb] in *. destruct (empty_tag t) eqn:Et; [easy|]. injection H as <-.
    apply Hm; auto with datatypes; try easy. intros E B. now rewrite (Hel E n B), Ee.
  - apply (simple_slight D); [easy|]. now apply set_attribute_slight in H.
  - ok_bind H r E. injection H as <-. apply (simple_slight D); [easy|]. now apply set_checked_slight in E.
  - unfold set_attribute_if_none in H. destruct (negb _); [|injection H as <-; easy]. apply (simple_slight D); [easy|]. now apply set_attribute_slight in H.
  - apply (simple_slight D); [easy|]. now apply remove_attribute_slight in H.
  - injection H as <-. apply (simple_slight D); [easy|]. now apply slight_modify.
Qed.

Theorem raw_simple D : raw_reachable D -> simple D.
Proof.
  induction 1 as [D H|D o D' _ IH Hn H|D n l _ IH Hn|D n l _ IH Hn].
  - exists D. split; [now constructor|]. unfold new_document in H. cbn in H. injection H as <-. repeat split. intros n. cbn. unfold upd.
    now destruct (Nat.eqb n 0).
  - now apply (simple_call o D).
  - apply (simple_slight D); [easy|]. now apply slight_modify.
  - apply (simple_slight D); [easy|]. now apply slight_modify.
Qed.
Theorem raw_bare D : raw_reachable D -> exists E, reachable E /\ bare E D.
Proof. intros H. destruct (raw_simple D H) as (E & R & B). exists E. split; [easy|]. now apply bare_of_iff. Qed.

(* a drop of the document *)
Lemma bare_drop l : forall E D, bare_of E D -> match drop_loop l D, drop_loop l E with
  | Ok D', Ok E' => bare_of E' D' | Panic p, Panic q => p = q | Diverge, Diverge => True | _, _ => False end.
Proof.
  induction l as [|n l IH]; intros E D B; cbn [drop_loop]; [easy|]. cbv zeta.
  set (D1 := modify n (set_linked []) (modify n (set_attrs (attrs_clear (attributes D n))) D)).
  set (E1 := modify n (set_linked []) (modify n (set_attrs (attrs_clear (attributes E n))) E)).
  assert (B1 : bare_of E1 D1).
  { destruct B as (A & B & C & G & H). repeat split; cbn; auto. intros m. rewrite !upd_eq. destruct (Nat.eqb m n); [|apply H].
    cbn. unfold upd. rewrite !Nat.eqb_refl. now rewrite H. }
  destruct B1 as (A1 & Br). rewrite A1. destruct (detach [] n (lk D1)) as [L| |]; cbn [bind]; try easy.
  apply IH. apply bare_with_lk. split; assumption.
Qed.
Lemma strip_fields d d' : strip d = strip d' -> d_key d = d_key d' /\ d_type d = d_type d' /\ d_tag d = d_tag d' /\ d_id d = d_id d' /\ d_text d = d_text d'.
Proof. destruct d, d'. unfold strip, set_attrs, set_linked. cbn. intros [= ]. auto. Qed.
Lemma bare_iff E D : bare E D <-> bare_of E D.
Proof.
  split; [|apply bare_of_iff]. intros [A B C G K T N I X Y Z]. repeat split; auto. intros n.
  specialize (K n). specialize (T n). specialize (N n). specialize (I n). specialize (X n). specialize (Y n). specialize (Z n).
  unfold storage_key, node_type, tag_name, id_of, text_of, attributes, linked_nodes in *.
  destruct (dt E n), (dt D n). unfold strip, set_attrs, set_linked. cbn in *. congruence.
Qed.
Lemma slight_same D D' : slight D D' -> same_but_links D D'.
Proof.
  intros (A & B & C & G & H). split; auto; intros n; destruct (strip_fields _ _ (H n)) as (? & ? & ? & ? & ?); easy.
Qed.

Theorem raw_trees D : raw_reachable D -> exists F, shows (lk D) F.
Proof.
  intros H. destruct (raw_bare D H) as (E & R & B). destruct (reachable_shows E R) as (F & S). exists F. now rewrite <- (ba_links E D B).
Qed.
Theorem raw_slots D : raw_reachable D ->
  (forall n k, storage_key D n = Some k <-> slab_get (store D) k = Some n) /\
  (forall n m k, storage_key D n = Some k -> storage_key D m = Some k -> n = m) /\
  (forall n k, storage_key D n = Some k -> exists s, slab_remove (store D) k = Ok (n, s)).
Proof.
  intros H. destruct (raw_bare D H) as (E & R & B). destruct (DocApi.slots E R) as (P & Q & S).
  rewrite (ba_store E D B) in *. pose proof (ba_key E D B) as K. split; [|split].
  - intros n k. rewrite <- K. apply P.
  - intros n m k. rewrite <- !K. apply Q.
  - intros n k. rewrite <- K. apply S.
Qed.

Theorem raw_calls E D o : bare E D -> no_attributes o -> same_outcome (step o E) (step o D).
Proof.
  intros B0 Hn. pose proof (proj1 (bare_iff E D) B0) as B. pose proof B as (A & Fr & C & G & H).
  assert (Hel : forall n, is_element E n = is_element D n) by (intros n; unfold is_element, node_type; now rewrite H).
  assert (Hl : forall f, same_outcome (on_links f E) (on_links f D)).
  { intros f. unfold on_links. rewrite A. destruct (f (lk D)); cbn; try easy. now apply bare_of_iff, bare_with_lk. }
  assert (Ha : forall d, strip d = d -> same_outcome (r <- alloc d E ;; Ok (snd r)) (r <- alloc d D ;; Ok (snd r))).
  { intros d Hd. destruct (alloc d D) as [r| |] eqn:Er.
    - destruct (bare_alloc E D d r B Hd Er) as (E' & -> & B'). cbn. now apply bare_of_iff.
    - revert Er. unfold alloc. rewrite G, Fr. destruct (slab_insert _ _); cbn; try easy. intros [= ->]. easy.
    - revert Er. unfold alloc. rewrite G, Fr. now destruct (slab_insert _ _). }
  destruct o; cbn [no_attributes step] in *; try easy; try apply Hl.
  - unfold create_element. destruct (empty_tag t); [easy|]. now apply Ha.
  - unfold create_node. destruct (_ || _); [easy|]. now apply Ha.
  - unfold set_text. rewrite Hel. destruct (is_element D n); [easy|]. cbn. now apply bare_of_iff, bare_modify.
  - cbn. now apply bare_of_iff, bare_modify.
  - unfold set_id. rewrite Hel. destruct (is_element D n); [|easy]. cbn. now apply bare_of_iff, bare_modify.
  - unfold set_tag_name. rewrite Hel. destruct (is_element D n); [|easy]. cbn [negb]. destruct (empty_tag t); [easy|]. cbn. now apply bare_of_iff, bare_modify.
Qed.
Theorem raw_drop E D : bare E D -> same_outcome (drop_document E) (drop_document D).
Proof.
  intros B. apply bare_iff in B. unfold drop_document. pose proof B as (_ & _ & _ & -> & _).
  pose proof (bare_drop (slab_iter (store D)) E D B) as H. unfold same_outcome. destruct (drop_loop _ D), (drop_loop _ E); try easy.
  now apply bare_of_iff.
Qed.
Theorem raw_remove E D n D' : bare E D -> remove_node n D = Ok D' -> exists E', remove_node n E = Ok E' /\ bare E' D'.
Proof.
  intros B H. apply bare_iff in B. destruct (bare_remove_node E D n D' B H) as (E' & H' & B'). exists E'. split; [easy|]. now apply bare_of_iff.
Qed.
(* ---- one attribute *)
Lemma get_value_first l name : attrs_get_value l name = option_map a_value (first_named l name).
Proof. induction l as [|a l IH]; cbn; [easy|]. destruct (aname_eqb _ _); [easy|apply IH]. Qed.
Lemma contains_first l name : attrs_contains l name = match first_named l name with Some _ => true | None => false end.
Proof.
  destruct (first_named l name) as [a|] eqn:E; unfold first_named in E.
  - apply find_some in E. destruct E as (Hi & He). apply contains_iff. apply aname_eqb_eq in He. subst. now apply in_map.
  - destruct (attrs_contains l name) eqn:Ec; [|easy]. apply contains_iff in Ec. apply in_map_iff in Ec. destruct Ec as (a & <- & Hi).
    apply (find_none _ _ E) in Hi. cbn in Hi. now rewrite aname_eqb_refl in Hi.
Qed.
Lemma remove_without {A} (p : A -> bool) l i : position p l = Some i -> without_first p l (remove_at i l).
Proof.
  revert i. induction l as [|x l IH]; intros i H; [easy|]. cbn in H. destruct (p x) eqn:Ex.
  - injection H as <-. exists [], x, l. now repeat split.
  - destruct (position p l) as [j|]; [|easy]. injection H as <-. destruct (IH j eq_refl) as (l1 & y & l2 & -> & E & Hy & Hl).
    exists (x :: l1), y, l2. cbn. rewrite E. repeat split; auto. intros z [<-|Hz]; auto.
Qed.
Lemma position_some {A} (p : A -> bool) l : (exists x, In x l /\ p x = true) -> exists i, position p l = Some i.
Proof.
  induction l as [|x l IH]; intros (y & Hy & Hp); [easy|]. cbn. destruct (p x) eqn:Ex; [now exists 0|].
  destruct Hy as [->|Hy]; [congruence|]. destruct IH as (i & ->); [now exists y|]. now exists (S i).
Qed.
Lemma position_none {A} (p : A -> bool) l : position p l = None -> forall x, In x l -> p x = false.
Proof.
  induction l as [|x l IH]; intros H y Hy; [easy|]. cbn in H. destruct (p x) eqn:Ex; [easy|]. destruct (position p l); [easy|].
  destruct Hy as [<-|Hy]; auto.
Qed.

Theorem raw_remove_returns D n name : (exists D', remove_attribute n name D = Ok D') <-> removable D n name.
Proof.
  unfold removable, remove_attribute, has_attribute. rewrite contains_first, get_value_first.
  destruct (first_named (attributes D n) name) as [a|] eqn:Ea; cbn [negb option_map].
  2:{ split; [easy|]. intros _. now exists D. }
  destruct (link_target (a_value a)) as [t|] eqn:Et; cbn [bind].
  2:{ split; [|intros _; eauto]. intros _ a' t [= <-]. congruence. }
  destruct (position (fun m => Nat.eqb m n) (linked_nodes D t)) as [i|] eqn:Ep.
  - assert (Hi : In n (linked_nodes D t)).
    { destruct (in_dec Nat.eq_dec n (linked_nodes D t)) as [|Hno]; [easy|exfalso]. destruct (remove_without _ _ _ Ep) as (l1 & x & l2 & El & _ & Hx & _).
      apply Nat.eqb_eq in Hx. subst x. apply Hno. rewrite El. apply in_or_app. right. now left. }
    unfold borrow_mut, mem. cbn [existsb]. destruct (Nat.eqb_spec t n) as [->|Hne]; cbn [orb].
    + split; [now intros (D' & ?)|]. intros H. destruct (H a n eq_refl Et). easy.
    + split; [|intros _; cbn [bind]; eauto]. intros _ a' t' [= <-] E2. rewrite Et in E2. injection E2 as <-. split; [exact Hi|exact Hne].
  - split; [now intros (D' & ?)|]. intros H. destruct (H a t eq_refl Et) as (Hi & _).
    apply (position_none _ _ Ep) in Hi. now rewrite Nat.eqb_refl in Hi.
Qed.
Theorem raw_remove_unwrap D n name a t : first_named (attributes D n) name = Some a -> link_target (a_value a) = Some t ->
  ~ In n (linked_nodes D t) -> remove_attribute n name D = Panic PUnwrap.
Proof.
  intros Ea Et Hn. unfold remove_attribute, has_attribute. rewrite contains_first, get_value_first, Ea. cbn [negb option_map]. rewrite Et.
  destruct (position (fun m => Nat.eqb m n) (linked_nodes D t)) as [i|] eqn:Ep; [|easy]. destruct (remove_without _ _ _ Ep) as (l1 & x & l2 & El & _ & Hx & _).
  apply Nat.eqb_eq in Hx. subst x. exfalso. apply Hn. rewrite El. apply in_or_app. right. now left.
Qed.
Theorem raw_remove_borrow D n name a : first_named (attributes D n) name = Some a -> link_target (a_value a) = Some n ->
  In n (linked_nodes D n) -> remove_attribute n name D = Panic PBorrow.
Proof.
  intros Ea Et Hn. unfold remove_attribute, has_attribute. rewrite contains_first, get_value_first, Ea. cbn [negb option_map]. rewrite Et.
  destruct (position_some (fun m => Nat.eqb m n) (linked_nodes D n)) as (i & ->); [exists n; split; [easy|apply Nat.eqb_refl]|].
  unfold borrow_mut, mem. cbn [existsb]. now rewrite Nat.eqb_refl.
Qed.
Theorem raw_remove_effect D n name D' : remove_attribute n name D = Ok D' -> attribute_gone D n name D'.
Proof.
  intros H. pose proof (slight_same D D' (remove_attribute_slight n name D D' H)) as Hs. split; [exact Hs|].
  unfold remove_attribute, has_attribute in H. rewrite contains_first, get_value_first in H.
  destruct (first_named (attributes D n) name) as [a|] eqn:Ea; cbn [negb option_map] in H; [|injection H as <-; easy].
  assert (Hp : exists i, position (fun x => aname_eqb (a_name x) name) (attributes D n) = Some i).
  { apply find_some in Ea. apply position_some. now exists a. }
  destruct Hp as (i & Hp). ok_bind H D1 E1. injection H as <-.
  assert (H1 : forall m, attributes D1 m = attributes D m).
  { intros m. destruct (link_target (a_value a)); [|now injection E1 as <-]. destruct (position _ _); [|easy]. unfold borrow_mut in E1.
    destruct (mem _ _); [easy|]. injection E1 as <-. apply (modify_linked_attrs n0 (remove_at n1)). }
  split; [|split].
  - intros m Hm. rewrite (modify_attrs_attrs n (fun l => attrs_remove l name)), H1. apply Nat.eqb_neq in Hm. now rewrite Hm.
  - rewrite (modify_attrs_attrs n (fun l => attrs_remove l name)), Nat.eqb_refl, H1. unfold attrs_remove. rewrite Hp. now apply remove_without.
  - intros m. rewrite (modify_attrs_linked n (fun l => attrs_remove l name)).
    destruct (link_target (a_value a)) as [t|]; [|now injection E1 as <-]. destruct (position (fun m => Nat.eqb m n) (linked_nodes D t)) as [j|] eqn:Ej; [|easy]. unfold borrow_mut in E1.
    destruct (mem _ _); [easy|]. injection E1 as <-. rewrite (modify_linked_linked t (remove_at j)). destruct (Nat.eqb_spec m t) as [->|]; [|easy].
    apply remove_without in Ej. destruct Ej as (l1 & x & l2 & El & Er & Hx & Hl). exists l1, x, l2. repeat split; auto.
    + now rewrite Nat.eqb_sym.
    + intros y Hy. rewrite Nat.eqb_sym. auto.
Qed.
Lemma link_refused D n a t : link_target (a_value a) = Some t ->
  (has_id D t = false \/ str_eqb (id_of D n) (id_of D t) = true \/ existsb (fun m => Nat.eqb m t) (linked_nodes D n) = true) <-> refused D n a.
Proof.
  intros Et. unfold refused, has_id. rewrite str_eqb_eq, existsb_exists.
  assert (Hi : (match id_of D t with [] => false | _ => true end) = false <-> id_of D t = []) by (destruct (id_of D t); easy).
  rewrite Hi. split.
  - intros H. exists t. split; [easy|]. destruct H as [H|[H|(x & Hx & E)]]; auto. apply Nat.eqb_eq in E. subst. auto.
  - intros (t' & E & H). rewrite Et in E. injection E as <-. destruct H as [H|[H|H]]; auto. right. right. exists t. split; [easy|apply Nat.eqb_refl].
Qed.
Theorem raw_set_returns D n a : (exists r, set_attribute_checked n a D = Ok r) <->
  is_element D n = true /\ (refused D n a \/ removable D n (a_name a)).
Proof.
  rewrite <- raw_remove_returns. unfold set_attribute_checked. destruct (is_element D n); cbn [negb].
  2:{ split; [now intros (r & ?)|now intros ([=] & _)]. }
  assert (Hl : forall t fb, link_target (a_value a) = Some t -> (exists r, set_link_attribute n (a_name a) t fb D = Ok r) <->
    true = true /\ (refused D n a \/ exists D', remove_attribute n (a_name a) D = Ok D')).
  { intros t fb Et. rewrite <- (link_refused D n a t Et). unfold set_link_attribute. destruct (has_id D t); cbn [negb]; [|split; eauto 6].
    destruct (str_eqb _ _); [split; eauto 6|]. destruct (existsb _ _); [split; eauto 6|].
    destruct (remove_attribute n (a_name a) D) as [D1| |]; cbn [bind]; (split; [|intros (_ & [[?|[?|?]]|(D' & ?)])]); try easy; eauto 6; now intros (r & ?). }
  assert (Hs : link_target (a_value a) = None -> (exists r, (D <- set_simple_attribute n a D ;; Ok (D, ROk)) = Ok r) <->
    true = true /\ (refused D n a \/ exists D', remove_attribute n (a_name a) D = Ok D')).
  { intros Et. assert (Hr : ~ refused D n a) by (intros (t & E & _); congruence). unfold set_simple_attribute. rewrite is_link_container_target, Et.
    destruct (remove_attribute n (a_name a) D) as [D1| |]; cbn [bind]; (split; [|intros (_ & [?|(D' & ?)])]); try easy; eauto 6; now intros (r & ?). }
  destruct (a_value a) eqn:Ev; try (apply Hs; reflexivity); apply Hl; reflexivity.
Qed.

(* ---- remove_node on a finite tree *)
Definition attr_panic (p : panic) : Prop := p = PUnwrap \/ p = PBorrow.
Definition slow (r : res dom) : Prop := match r with Ok _ => True | Panic p => attr_panic p | Diverge => False end.
Lemma remove_attribute_slow n x D : slow (remove_attribute n x D).
Proof.
  unfold remove_attribute. destruct (negb _); [easy|]. destruct (attrs_get_value _ x) as [v|]; [|easy]. destruct (link_target v) as [t|]; [|easy].
  destruct (position _ _); [|now left]. unfold borrow_mut. destruct (mem _ _); [now right|easy].
Qed.
Lemma remove_all_slow n l : forall D, slow (remove_all n l D).
Proof.
  induction l as [|x l IH]; intros D; [easy|]. cbn. pose proof (remove_attribute_slow n x D) as H. destruct (remove_attribute n x D); [apply IH|easy|easy].
Qed.
Lemma unlink_users_slow n l : forall D, slow (unlink_users n l D).
Proof.
  induction l as [|x l IH]; intros D; [easy|]. cbn. match goal with |- context [remove_all ?a ?b ?c] => pose proof (remove_all_slow a b c) as H; destruct (remove_all a b c) end;
    [apply IH|easy|easy].
Qed.
Lemma remove_links_slow n D : slow (remove_links n D).
Proof.
  unfold remove_links. match goal with |- context [remove_all ?a ?b ?c] => pose proof (remove_all_slow a b c) as H; destruct (remove_all a b c) end;
    [apply unlink_users_slow|easy|easy].
Qed.
Definition sim (rE rD : res dom) : Prop :=
  match rE with Ok E' => match rD with Ok D' => bare_of E' D' | Panic p => attr_panic p | Diverge => False end | _ => True end.
Lemma sim_finish E D n : bare_of E D -> sim (remove_finish n E) (remove_finish n D).
Proof.
  intros B. destruct (remove_finish n D) as [D'| |] eqn:Ed.
  - destruct (bare_remove_finish E D n D' B Ed) as (E' & -> & B'). exact B'.
  - destruct (remove_finish n E) eqn:Ee; [|easy|easy]. exfalso. destruct B as (A & Fr & C & G & H). revert Ed Ee. unfold remove_finish. rewrite A.
    destruct (detach [] n (lk D)) as [L| |]; cbn [bind]; try easy. cbv zeta.
    assert (Hk : storage_key (with_lk L E) n = storage_key (with_lk L D) n) by (unfold storage_key; cbn; now rewrite H). rewrite Hk.
    destruct (storage_key (with_lk L D) n); [|intros; discriminate]. change (store (modify n (set_key None) (with_lk L E))) with (store E).
    change (store (modify n (set_key None) (with_lk L D))) with (store D). rewrite G. destruct (slab_remove _ _); intros; discriminate.
  - destruct (remove_finish n E) eqn:Ee; [|easy|easy]. exfalso. destruct B as (A & Fr & C & G & H). revert Ed Ee. unfold remove_finish. rewrite A.
    destruct (detach [] n (lk D)) as [L| |]; cbn [bind]; try easy. cbv zeta.
    assert (Hk : storage_key (with_lk L E) n = storage_key (with_lk L D) n) by (unfold storage_key; cbn; now rewrite H). rewrite Hk.
    destruct (storage_key (with_lk L D) n); [|intros; discriminate]. change (store (modify n (set_key None) (with_lk L E))) with (store E).
    change (store (modify n (set_key None) (with_lk L D))) with (store D). rewrite G. destruct (slab_remove _ _); intros; discriminate.
Qed.
Lemma sim_for_children (body : nid -> dom -> res dom) : (forall c E D, bare_of E D -> sim (body c E) (body c D)) ->
  forall fuel it E D, bare_of E D -> sim (for_children lk fuel body it E) (for_children lk fuel body it D).
Proof.
  intros Hb. induction fuel as [|fuel IH]; intros it E D B; [easy|]. cbn [for_children]. pose proof B as (A & _). rewrite A.
  destruct (children_next (lk D) it) as [[c|] it']; [|exact B]. specialize (Hb c E D B). unfold sim in Hb.
  destruct (body c E) as [E1| |]; [|easy|easy]. destruct (body c D) as [D1| |]; cbn [bind]; [now apply IH| |easy].
  cbn. destruct (for_children lk fuel body it' E1); easy.
Qed.
Lemma sim_rec fuel : forall n E D, bare_of E D -> sim (remove_rec fuel n E) (remove_rec fuel n D).
Proof.
  induction fuel as [|fuel IH]; intros n E D B; [easy|]. cbn [remove_rec]. rewrite (bare_remove_links E D n B). cbn [bind].
  pose proof (remove_links_slow n D) as Hs. destruct (remove_links n D) as [D1| |] eqn:E1; cbn [bind].
  - pose proof (slight_bare E D D1 B (remove_links_slight n D D1 E1)) as B1. pose proof B1 as (A1 & _). rewrite A1.
    pose proof (sim_for_children (remove_rec fuel) IH fuel (children (lk D1) n) E D1 B1) as H. unfold sim in H.
    destruct (for_children lk fuel (remove_rec fuel) (children (lk D1) n) E) as [E2| |]; [|easy|easy].
    destruct (for_children lk fuel (remove_rec fuel) (children (lk D1) n) D1) as [D2| |]; cbn [bind]; [now apply sim_finish| |easy].
    cbn. destruct (remove_finish n E2); easy.
  - cbn in Hs. unfold sim. match goal with |- match ?x with _ => _ end => destruct x end; easy.
  - easy.
Qed.
Theorem raw_remove_total E D n E' : bare E D -> remove_node n E = Ok E' ->
  (exists D', remove_node n D = Ok D' /\ bare E' D') \/ remove_node n D = Panic PUnwrap \/ remove_node n D = Panic PBorrow.
Proof.
  intros B H. apply bare_iff in B. unfold remove_node in *. pose proof (sim_rec (enough E) n E D B) as S. unfold sim in S. rewrite H in S.
  replace (enough D) with (enough E) by (unfold enough; destruct B as (_ & -> & _); reflexivity).
  destruct (remove_rec (enough E) n D) as [D'|p|]; [|destruct S as [-> | ->]; auto|easy]. left. exists D'. split; [easy|]. now apply bare_of_iff.
Qed.

Theorem raw_remove_tree D F t : raw_reachable D -> shows (lk D) F -> tree_at F t -> exists_node D (t_node t) ->
  (exists D' F', remove_node (t_node t) D = Ok D' /\ shows (lk D') F' /\ pruned (preorder t) F F' /\
     forall x, storage_key D' x = if mem x (preorder t) then None else storage_key D x) \/
  remove_node (t_node t) D = Panic PUnwrap \/ remove_node (t_node t) D = Panic PBorrow.
Proof.
  intros R S T Hn. destruct (raw_bare D R) as (E & RE & B). pose proof (ba_links E D B) as HL. pose proof (ba_fresh E D B) as HF.
  assert (HnE : exists_node E (t_node t)) by (unfold exists_node in *; now rewrite HF).
  assert (SE : shows (lk E) F) by now rewrite HL.
  destruct (DocApi.remove_cases_api E F t RE SE T HnE) as (E' & F' & HE & Hr & HS & HP & _).
  destruct (raw_remove_total E D (t_node t) E' B HE) as [(D' & HD & B')|H]; [left|right; exact H].
  exists D', F'. split; [exact HD|]. split; [now rewrite <- (ba_links E' D' B')|]. split; [exact HP|].
  intros x. rewrite <- (ba_key E' D' B'), <- (ba_key E D B). apply (rv_key _ _ _ Hr).
Qed.
