(* The order of XML attributes does not matter to the parser. *)
From Coq Require Import String List Bool PeanoNat NArith Lia Sorting.Permutation.
From Verif Require Import Base Ids Links Tree Iter ForestSpec TreeSpec ListFacts ForestFacts TreeProofs Data Attrs Slab NodeApi Doc Text
  AttrFacts LinkProofs AttrSpec DocSpec NodeSpec History InvProofs HistoryProofs CopyProofs ApiProofs NodeProofs
  DocApi World WorldSpec WorldInv WorldProofs MixProofs DrainEditProofs Names Types Parser ParserSpec ParserProofs ParserTree ParserLinks ParserFacts
  ParserStatements Loops PruneFacts DrainProofs ParserApi Writer Css OrderSpec OrderProofs OrderWrite XmlOrderSpec XmlOrderText.
Import ListNotations.
Open Scope nat_scope.
Open Scope list_scope.

(* ---- references: two of the same element may change places *)
Inductive shuffle : list link -> list link -> Prop :=
| sh_nil : shuffle [] []
| sh_skip : forall d l l', shuffle l l' -> shuffle (d :: l) (d :: l')
| sh_swap : forall d d' l, l_node d = l_node d' -> l_attr d <> l_attr d' -> shuffle (d :: d' :: l) (d' :: d :: l)
| sh_trans : forall l l' l'', shuffle l l' -> shuffle l' l'' -> shuffle l l''.
Lemma shuffle_refl l : shuffle l l.
Proof. induction l; now constructor. Qed.
Lemma shuffle_tail l l' k : shuffle l l' -> shuffle (l ++ k) (l' ++ k).
Proof.
  induction 1 as [|d l l' _ IH|d d' l h1 h2|l l' l'' _ IH1 _ IH2]; cbn [app].
  - apply shuffle_refl.
  - now constructor.
  - now apply sh_swap.
  - now apply (sh_trans _ (l' ++ k)).
Qed.
Lemma shuffle_head k l l' : shuffle l l' -> shuffle (k ++ l) (k ++ l').
Proof. intros H. induction k; [exact H|]. cbn [app]. now constructor. Qed.

Lemma rel_trans D1 D2 D3 : rel D1 D2 -> rel D2 D3 -> rel D1 D3.
Proof.
  intros R R'. split; try apply R; try apply R'.
  - rewrite (rl_fresh _ _ R'). apply R.
  - rewrite (rl_root _ _ R'). apply R.
  - destruct (rl_forest _ _ R) as (F & S1 & S2). destruct (rl_forest _ _ R') as (F' & S2' & S3). exists F. split; [exact S1|].
    assert (N : forall n, parent (lk D3) n = parent (lk D2) n /\ first_child (lk D3) n = first_child (lk D2) n /\
        last_child (lk D3) n = last_child (lk D2) n /\ next_sibling (lk D3) n = next_sibling (lk D2) n /\
        previous_sibling (lk D3) n = previous_sibling (lk D2) n) by exact (rel_nav _ _ R').
    split; [apply S2| | | | | ]; intros n; destruct (N n) as (e1 & e2 & e3 & e4 & e5); rewrite ?e1, ?e2, ?e3, ?e4, ?e5; apply S2.
  - intros n Hn. destruct (rl_all _ _ R n) as [a1 a2 a3 a4 a5 a6], (rl_all _ _ R' n) as [b1 b2 b3 b4 b5 b6].
    split; try congruence. now rewrite b5.
Qed.

(* ---- the state of the parser *)
Definition psim (K : nat) (s s' : pstate) : Prop := rel (fst s) (fst s') /\ shuffle (snd s) (snd s') /\ fresh (fst s) = K.
Lemma psim_refl s : reachable (fst s) -> psim (fresh (fst s)) s s.
Proof. intros H. split; [now apply rel_refl|]. split; [apply shuffle_refl|reflexivity]. Qed.
Lemma psim_trans K a b c : psim K a b -> psim K b c -> psim K a c.
Proof.
  intros (R & S & E) (R' & S' & E'). split; [now apply (rel_trans _ (fst b))|]. split; [now apply (sh_trans _ (snd b))|exact E].
Qed.
Lemma rel_tag_id D D' n : rel D D' -> tag_id D' n = tag_id D n.
Proof. intros R. unfold tag_id. now rewrite (si_tag _ _ _ (rl_all _ _ R n)). Qed.
Lemma plain_parsed P e a v w : parse_value P e a v = OValue w -> link_target w = None.
Proof. unfold parse_value. apply attribute_plain. Qed.

Lemma value_sim P a v n K s s' : psim K s s' ->
  same_outcome (psim K) (parse_svg_attribute_value P a v n s) (parse_svg_attribute_value P a v n s').
Proof.
  intros T. pose proof T as (R & S & E). unfold parse_svg_attribute_value. rewrite (rel_tag_id _ _ n R).
  destruct (tag_id (fst s) n) as [e|]; [|exact Logic.I]. cbn [unwrap bind].
  destruct (parse_value P e a v) as [w| | |iri fb] eqn:Ev; try exact T.
  - destruct (dropped P w); [exact T|]. eapply outcome_bind; [apply set_plain_sim; [exact R|exact (plain_parsed _ _ _ _ _ Ev)]|].
    intros x y (Rx & Fx & _). split; [exact Rx|]. split; [exact S|]. cbn [fst]. congruence.
  - cbn [same_outcome]. split; [exact R|]. cbn [fst snd]. split; [now apply shuffle_tail|exact E].
Qed.
Lemma each_sim {A} K (body : A -> pstate -> res pstate) l :
  (forall x s s', psim K s s' -> same_outcome (psim K) (body x s) (body x s')) ->
  forall s s', psim K s s' -> same_outcome (psim K) (for_each body l s) (for_each body l s').
Proof.
  intros Hb. induction l as [|x l IH]; intros s s' T; [exact T|]. cbn [for_each].
  eapply outcome_bind; [now apply Hb|]. intros a b. apply IH.
Qed.
Lemma css_sim P name v n K s s' : psim K s s' ->
  same_outcome (psim K) (parse_css_attribute_value P name v n s) (parse_css_attribute_value P name v n s').
Proof.
  intros T. unfold parse_css_attribute_value. destruct (attribute_from_str name) as [[id|]| |]; try exact Logic.I; [|exact T].
  cbn [bind]. destruct (_ && _); [exact T|]. destruct (aid_eqb id A_Marker); [|now apply value_sim].
  eapply outcome_bind; [now apply (value_sim P _ v n K)|]. intros a b Ta.
  eapply outcome_bind; [now apply (value_sim P _ v n K)|]. intros c d Tc. now apply value_sim.
Qed.
Lemma style_sim P v n K s s' : psim K s s' -> same_outcome (psim K) (parse_style_attribute P v n s) (parse_style_attribute P v n s').
Proof.
  intros T. unfold parse_style_attribute. apply each_sim; [|exact T]. clear T s s'. intros x s s' T.
  destruct (attribute_from_str (fst x)) as [[id|]| |]; try exact Logic.I; [|exact T]. cbn [bind].
  destruct (_ || _); [now apply value_sim|exact T].
Qed.
Lemma rules_sim P rules top top' path n K s s' : (forall r, In r rules -> forall p, r_matches r top' p = r_matches r top p) -> psim K s s' ->
  same_outcome (psim K) (parse_rules P rules top path n s) (parse_rules P rules top' path n s').
Proof.
  intros H T. unfold parse_rules. revert s s' T. induction rules as [|r rules IH]; intros s s' T; [exact T|]. cbn [for_each].
  rewrite (H r (or_introl eq_refl)). apply (outcome_bind (psim K)).
  - destruct (r_matches r top path); [|exact T]. apply each_sim; [|exact T]. intros d a b. apply css_sim.
  - intros a b Ta. apply IH; [|exact Ta]. intros q Hq. apply H. now right.
Qed.

(* ---- what one XML attribute does *)
Inductive act := AcNone | AcPanic | AcId (v : str) | AcSet (a : aid) (v : avalue) | AcLink (a : aid) (iri : str) (fb : option fallback).
Definition do_act (x : act) (n : nid) (s : pstate) : res pstate :=
  match x with
  | AcNone => Ok s
  | AcPanic => Panic PUnwrap
  | AcId v => D <- set_id n v (fst s) ;; Ok (D, snd s)
  | AcSet a v => D <- set_attribute n (mkAttr (QId a) v) (fst s) ;; Ok (D, snd s)
  | AcLink a iri fb => Ok (fst s, snd s ++ [mkLink a iri fb n])
  end.
Definition value_act (P : values) (t : option eid) (a : aid) (v : str) : act :=
  match t with
  | None => AcPanic
  | Some e => match parse_value P e a v with
              | OValue w => if dropped P w then AcNone else AcSet a w
              | ONothing | OInvalid => AcNone
              | OLink iri fb => AcLink a iri fb
              end
  end.
Definition act_of (P : values) (t : option eid) (x : xattr) : act :=
  if known_ns (x_ns x) then
    match attribute_named (x_name x) with
    | Some A_Id => AcId (x_value x)
    | Some A_Style | Some A_Class | None => AcNone
    | Some a => value_act P t a (x_value x)
    end
  else AcNone.
Definition attr_body (P : values) (n : nid) (x : xattr) (s : pstate) : res pstate :=
  if known_ns (x_ns x) then
    o <- attribute_from_str (x_name x) ;;
    match o with Some a => parse_svg_attribute P a (x_value x) n s | None => Ok s end
  else Ok s.
Lemma attributes_body P attrs n s : parse_attributes P attrs n s = for_each (attr_body P n) attrs s.
Proof. reflexivity. Qed.
Lemma value_do P a v n s : parse_svg_attribute_value P a v n s = do_act (value_act P (tag_id (fst s) n) a v) n s.
Proof.
  unfold parse_svg_attribute_value, value_act. destruct (tag_id (fst s) n) as [e|]; [|reflexivity]. cbn [unwrap bind].
  destruct (parse_value P e a v); try reflexivity. now destruct (dropped P v0).
Qed.
Lemma body_do P n x s : attr_body P n x s = do_act (act_of P (tag_id (fst s) n) x) n s.
Proof.
  unfold attr_body, act_of. destruct (known_ns (x_ns x)); [|reflexivity]. rewrite attribute_named_eq. cbn [bind].
  destruct (attribute_named (x_name x)) as [a|]; [|reflexivity]. unfold parse_svg_attribute.
  destruct a; try reflexivity; apply value_do.
Qed.
Lemma act_plain P t x a v : act_of P t x = AcSet a v -> link_target v = None.
Proof.
  unfold act_of. destruct (known_ns _); [|discriminate]. destruct (attribute_named (x_name x)) as [b|]; [|discriminate].
  assert (G : forall c, value_act P t c (x_value x) = AcSet a v -> link_target v = None).
  { intros c. unfold value_act. destruct t as [e|]; [|discriminate]. destruct (parse_value P e c (x_value x)) eqn:E; try discriminate.
    destruct (dropped P v0); [discriminate|]. intros [= _ <-]. exact (plain_parsed _ _ _ _ _ E). }
  destruct b; try discriminate; apply G.
Qed.
Definition act_name (x : act) : option aid :=
  match x with AcId _ => Some A_Id | AcSet a _ | AcLink a _ _ => Some a | _ => None end.
Lemma act_named P t x a : act_name (act_of P t x) = Some a -> exists v, svg_attributes [x] = [(a, v)].
Proof.
  unfold act_of, svg_attributes. cbn [flat_map]. rewrite <- svg_namespace_eq. destruct (known_ns (x_ns x)); [|discriminate].
  destruct (attribute_named (x_name x)) as [b|]; [|discriminate].
  assert (G : forall c, act_name (value_act P t c (x_value x)) = Some a -> c = a).
  { intros c. unfold value_act. destruct t as [e|]; [|discriminate]. destruct (parse_value P e c (x_value x)); try discriminate.
    - destruct (dropped P v); [discriminate|]. now intros [= <-].
    - now intros [= <-]. }
  intros H. assert (E : b = a) by (destruct b; try discriminate H; try (now apply G in H); now injection H as <-).
  subst b. eexists. reflexivity.
Qed.

(* ---- two of them change places *)
Lemma set_id_ok n v D : is_element D n = true -> set_id n v D = Ok (modify n (set_id_field v) D).
Proof. intros H. unfold set_id. now rewrite H. Qed.
Lemma filter_twice {A} (p q : A -> bool) l : filter p (filter q l) = filter q (filter p l).
Proof.
  induction l as [|x l IH]; [reflexivity|]. cbn [filter]. destruct (q x) eqn:Eq, (p x) eqn:Ep; cbn [filter]; rewrite ?Ep, ?Eq, IH; reflexivity.
Qed.
Lemma legal_plain n a D : exists_node D n -> link_target (a_value a) = None -> legal (OSetAttribute n a) D.
Proof. intros H E. split; [|exact Logic.I]. cbn [handles]. rewrite E. intros m [<-|[]]. exact H. Qed.
Lemma legal_id n v D : exists_node D n -> legal (OSetId n v) D.
Proof. intros H. split; [|exact Logic.I]. intros m [<-|[]]. exact H. Qed.

Lemma plain_set D n a : reachable D -> is_element D n = true -> link_target (a_value a) = None ->
  exists D', set_attribute n a D = Ok D' /\ reachable D' /\ same_nodes D D' /\
    attributes D' n = others (a_name a) (attributes D n) ++ [a] /\ (forall m, m <> n -> attributes D' m = attributes D m).
Proof.
  intros H He Ha. pose proof (set_cases D n a H He) as C. assert (Er : refused D n a = None) by (unfold refused; now rewrite Ha).
  rewrite Er in C. destruct C as (D' & E & N & A & O). exists D'. split; [exact E|]. split.
  - apply (reach_step D (OSetAttribute n a) D' H); [|exact E]. apply legal_plain; [now apply element_exists|exact Ha].
  - split; [exact N|]. split; [|exact O]. rewrite A. f_equal. f_equal. destruct a as [x v]. cbn [a_name a_value] in *. f_equal.
    unfold shape. now rewrite Ha.
Qed.
Lemma two_sets D n a b : reachable D -> is_element D n = true -> link_target (a_value a) = None -> link_target (a_value b) = None ->
  a_name a <> a_name b ->
  exists D1 D2, (D <- set_attribute n a D ;; set_attribute n b D) = Ok D1 /\ (D <- set_attribute n b D ;; set_attribute n a D) = Ok D2 /\
    rel D1 D2 /\ fresh D1 = fresh D.
Proof.
  intros H He Ha Hb Hab.
  destruct (plain_set D n a H He Ha) as (E1 & C1 & H1 & N1 & A1 & O1). destruct (plain_set D n b H He Hb) as (E2 & C2 & H2 & N2 & A2 & O2).
  assert (He1 : is_element E1 n = true) by (unfold is_element in *; now rewrite (sn_type _ _ N1)).
  assert (He2 : is_element E2 n = true) by (unfold is_element in *; now rewrite (sn_type _ _ N2)).
  destruct (plain_set E1 n b H1 He1 Hb) as (E12 & C12 & H12 & N12 & A12 & O12).
  destruct (plain_set E2 n a H2 He2 Ha) as (E21 & C21 & H21 & N21 & A21 & O21).
  exists E12, E21. rewrite C1, C2. cbn [bind]. split; [exact C12|]. split; [exact C21|].
  assert (T : forall A B C, same_nodes A B -> same_nodes B C -> same_nodes A C).
  { intros A B C X Y. split; try (etransitivity; [apply Y|apply X]); intros m; (etransitivity; [apply Y|apply X]). }
  split.
  - apply (attrs_sim D D); try assumption; [now apply rel_refl|now apply (T _ E1)|now apply (T _ E2)|].
    intros m. destruct (Nat.eq_dec m n) as [->|Hm].
    + rewrite A12, A21, A1, A2. unfold others. rewrite !filter_app. cbn [filter].
      assert (X : aname_eqb (a_name a) (a_name b) = false) by (destruct (aname_eqb (a_name a) (a_name b)) eqn:Q; [apply aname_eqb_eq in Q; contradiction|reflexivity]).
      assert (Y : aname_eqb (a_name b) (a_name a) = false) by (destruct (aname_eqb (a_name b) (a_name a)) eqn:Q; [apply aname_eqb_eq in Q; congruence|reflexivity]).
      rewrite X, Y. cbn [negb]. rewrite filter_twice, <- !app_assoc. apply Permutation_app_head. apply perm_swap.
    + now rewrite (O12 m Hm), (O21 m Hm), (O1 m Hm), (O2 m Hm).
  - rewrite (sn_count _ _ N12). apply N1.
Qed.
Lemma set_and_id D n a v : reachable D -> is_element D n = true -> link_target (a_value a) = None ->
  exists D1 D2, (D <- set_attribute n a D ;; set_id n v D) = Ok D1 /\ (D <- set_id n v D ;; set_attribute n a D) = Ok D2 /\
    rel D1 D2 /\ rel D2 D1 /\ fresh D1 = fresh D /\ fresh D2 = fresh D.
Proof.
  intros H He Ha. pose proof (element_exists D n H He) as Hn.
  destruct (plain_set D n a H He Ha) as (E1 & C1 & H1 & N1 & A1 & O1).
  assert (He1 : is_element E1 n = true) by (unfold is_element in *; now rewrite (sn_type _ _ N1)).
  set (E2 := modify n (set_id_field v) D). assert (C2 : set_id n v D = Ok E2) by now apply set_id_ok.
  assert (H2 : reachable E2) by (apply (reach_step D (OSetId n v)); [exact H|now apply legal_id|exact C2]).
  assert (He2 : is_element E2 n = true).
  { unfold E2, is_element, node_type, modify, with_dt in *. cbn [dt]. rewrite upd_same. exact He. }
  destruct (plain_set E2 n a H2 He2 Ha) as (E21 & C21 & H21 & N21 & A21 & O21).
  set (E12 := modify n (set_id_field v) E1). assert (C12 : set_id n v E1 = Ok E12) by now apply set_id_ok.
  assert (H12 : reachable E12).
  { apply (reach_step E1 (OSetId n v)); [exact H1|apply legal_id; now apply element_exists|exact C12]. }
  exists E12, E21. rewrite C1, C2. cbn [bind]. split; [exact C12|]. split; [exact C21|].
  assert (At : forall B m, attributes (modify n (set_id_field v) B) m = attributes B m).
  { intros B m. unfold attributes, modify, with_dt. cbn [dt]. destruct (Nat.eq_dec m n) as [->|Hm]; [now rewrite upd_same|now rewrite upd_other]. }
  assert (Rl : rel E12 E21).
  { split; try assumption.
    - rewrite (sn_count _ _ N21). unfold E12, E2, modify, with_dt. cbn [fresh]. symmetry. apply N1.
    - rewrite (sn_root _ _ N21). unfold E12, E2, modify, with_dt. cbn [droot]. symmetry. apply N1.
    - rewrite (sn_links _ _ N21). unfold E12, E2, modify, with_dt. cbn [lk]. rewrite (sn_links _ _ N1). apply (rl_forest _ _ (rel_refl D H)).
    - intros m _. split.
      + rewrite (sn_type _ _ N21). unfold E12, E2. pose proof (sn_type _ _ N1 m) as X. unfold node_type, modify, with_dt in *. cbn [dt].
        destruct (Nat.eq_dec m n) as [->|Hm]; [rewrite !upd_same; cbn; congruence|rewrite !upd_other by exact Hm; congruence].
      + rewrite (sn_tag _ _ N21). unfold E12, E2. pose proof (sn_tag _ _ N1 m) as X. unfold tag_name, modify, with_dt in *. cbn [dt].
        destruct (Nat.eq_dec m n) as [->|Hm]; [rewrite !upd_same; cbn; congruence|rewrite !upd_other by exact Hm; congruence].
      + rewrite (sn_id _ _ N21). unfold E12, E2. pose proof (sn_id _ _ N1 m) as X. unfold id_of, modify, with_dt in *. cbn [dt].
        destruct (Nat.eq_dec m n) as [->|Hm]; [rewrite !upd_same; reflexivity|rewrite !upd_other by exact Hm; congruence].
      + rewrite (sn_text _ _ N21). unfold E12, E2. pose proof (sn_text _ _ N1 m) as X. unfold text_of, modify, with_dt in *. cbn [dt].
        destruct (Nat.eq_dec m n) as [->|Hm]; [rewrite !upd_same; cbn; congruence|rewrite !upd_other by exact Hm; congruence].
      + assert (Q : attributes E21 m = attributes E12 m); [|now rewrite Q]. unfold E12. rewrite At.
        destruct (Nat.eq_dec m n) as [->|Hm].
        * rewrite A21, A1. unfold E2. now rewrite At.
        * rewrite (O21 m Hm), (O1 m Hm). unfold E2. now rewrite At.
      + unfold is_detached. rewrite (sn_key _ _ N21). unfold E12, E2. pose proof (sn_key _ _ N1 m) as X. unfold storage_key, modify, with_dt in *. cbn [dt].
        destruct (Nat.eq_dec m n) as [->|Hm]; [rewrite !upd_same; cbn; now rewrite X|rewrite !upd_other by exact Hm; now rewrite X]. }
  split; [exact Rl|]. split.
  - split; try apply Rl; try (symmetry; apply Rl).
    + destruct (rl_forest _ _ Rl) as (F & S & S'). now exists F.
    + intros m _. destruct (rl_all _ _ Rl m). split; try congruence. now apply Permutation_sym.
  - split; [exact (sn_count _ _ N1)|exact (sn_count _ _ N21)].
Qed.

Definition elem (n : nid) (s : pstate) : Prop := reachable (fst s) /\ is_element (fst s) n = true.
(* an act succeeds or panics, and leaves the node an element with its tag *)
Lemma act_cases x n s : elem n s -> (forall a v, x = AcSet a v -> link_target v = None) ->
  (exists k, do_act x n s = Panic k) /\ x = AcPanic \/
  exists s', do_act x n s = Ok s' /\ elem n s' /\ tag_id (fst s') n = tag_id (fst s) n /\ fresh (fst s') = fresh (fst s).
Proof.
  intros (H & He) Hx. pose proof (element_exists _ n H He) as Hn. destruct x as [| |v|a v|a iri fb]; cbn [do_act].
  - right. exists s. now split.
  - left. split; [eexists; reflexivity|reflexivity].
  - right. rewrite (set_id_ok n v _ He). cbn [bind]. eexists. split; [reflexivity|]. split; [split|]; cbn [fst].
    + apply (reach_step (fst s) (OSetId n v)); [exact H|now apply legal_id|now apply set_id_ok].
    + unfold is_element, node_type, modify, with_dt in *. cbn [dt]. rewrite upd_same. exact He.
    + split; [|reflexivity]. unfold tag_id, tag_name, modify, with_dt. cbn [dt]. rewrite upd_same. reflexivity.
  - right. destruct (plain_set (fst s) n (mkAttr (QId a) v) H He) as (D' & E & H' & N & _); [exact (Hx a v eq_refl)|].
    rewrite E. cbn [bind]. eexists. split; [reflexivity|]. cbn [fst]. split; [split; [exact H'|]|split].
    + unfold is_element in *. now rewrite (sn_type _ _ N).
    + unfold tag_id. now rewrite (sn_tag _ _ N).
    + apply N.
  - right. eexists. split; [reflexivity|]. now split.
Qed.
Lemma acts_swap x y n s : elem n s -> (forall a v, x = AcSet a v -> link_target v = None) -> (forall a v, y = AcSet a v -> link_target v = None) ->
  (act_name x = None \/ act_name x <> act_name y) ->
  same_outcome (psim (fresh (fst s))) (s <- do_act x n s ;; do_act y n s) (s <- do_act y n s ;; do_act x n s).
Proof.
  intros E Hx Hy Hn.
  assert (Same : forall r, (s <- do_act x n s ;; do_act y n s) = r -> (s <- do_act y n s ;; do_act x n s) = r ->
    same_outcome (psim (fresh (fst s))) (s <- do_act x n s ;; do_act y n s) (s <- do_act y n s ;; do_act x n s)).
  { intros r e1 e2. rewrite e1, e2. apply outcome_refl. intros a ->.
    destruct (act_cases x n s E Hx) as [((k & Ek) & _)|(s1 & E1 & El1 & _ & F1)]; [rewrite Ek in e1; discriminate|]. rewrite E1 in e1. cbn [bind] in e1.
    destruct (act_cases y n s1 El1 Hy) as [((k & Ek) & _)|(s2 & E2 & El2 & _ & F2)]; [rewrite Ek in e1; discriminate|]. rewrite E2 in e1. injection e1 as <-.
    rewrite <- F1, <- F2. apply psim_refl, El2. }
  pose proof E as (H & He).
  destruct x as [| |v|a v|a iri fb].
  - destruct (act_cases y n s E Hy) as [((k & Ek) & _)|(s1 & E1 & _)].
    + apply (Same (Panic k)); cbn [do_act bind]; rewrite Ek; reflexivity.
    + apply (Same (Ok s1)); cbn [do_act bind]; rewrite E1; reflexivity.
  - destruct (act_cases y n s E Hy) as [((k & Ek) & _)|(s1 & E1 & _)]; cbn [do_act bind]; [rewrite Ek|rewrite E1]; exact Logic.I.
  - destruct y as [| |w|b w|b iri fb].
    + apply (Same (do_act (AcId v) n s)); cbn [do_act bind]; [now destruct (set_id n v (fst s))|reflexivity].
    + cbn [do_act bind]. rewrite (set_id_ok n v _ He). exact Logic.I.
    + destruct Hn as [Hn|Hn]; [discriminate|now contradiction Hn].
    + destruct (set_and_id (fst s) n (mkAttr (QId b) w) v H He) as (D1 & D2 & e1 & e2 & R1 & R2 & F1 & F2); [exact (Hy b w eq_refl)|].
      cbn [do_act]. destruct (set_id n v (fst s)) as [A| |]; try discriminate. destruct (set_attribute n _ (fst s)) as [B| |]; try discriminate.
      cbn [bind fst snd] in *. rewrite e1, e2. cbn [bind same_outcome]. split; [exact R2|]. split; [apply shuffle_refl|exact F2].
    + apply (Same (D <- set_id n v (fst s) ;; Ok (D, snd s ++ [mkLink b iri fb n]))); cbn [do_act bind]; [now destruct (set_id n v (fst s))|reflexivity].
  - destruct y as [| |w|b w|b iri fb].
    + apply (Same (do_act (AcSet a v) n s)); cbn [do_act bind]; [now destruct (set_attribute n _ (fst s))|reflexivity].
    + cbn [do_act bind]. destruct (plain_set (fst s) n (mkAttr (QId a) v) H He (Hx a v eq_refl)) as (D1 & e & _). rewrite e. exact Logic.I.
    + destruct (set_and_id (fst s) n (mkAttr (QId a) v) w H He) as (D1 & D2 & e1 & e2 & R1 & R2 & F1 & F2); [exact (Hx a v eq_refl)|].
      cbn [do_act]. destruct (set_id n w (fst s)) as [A| |]; try discriminate. destruct (set_attribute n _ (fst s)) as [B| |]; try discriminate.
      cbn [bind fst snd] in *. rewrite e1, e2. cbn [bind same_outcome]. split; [exact R1|]. split; [apply shuffle_refl|exact F1].
    + assert (Hab : a <> b) by (destruct Hn as [Hn|Hn]; [discriminate|intros ->; now apply Hn]).
      destruct (two_sets (fst s) n (mkAttr (QId a) v) (mkAttr (QId b) w) H He (Hx a v eq_refl) (Hy b w eq_refl)) as (D1 & D2 & e1 & e2 & R1 & F1);
        [cbn [a_name]; congruence|].
      cbn [do_act]. destruct (set_attribute n (mkAttr (QId a) v) (fst s)) as [A| |]; try discriminate.
      destruct (set_attribute n (mkAttr (QId b) w) (fst s)) as [B| |]; try discriminate.
      cbn [bind fst snd] in *. rewrite e1, e2. cbn [bind same_outcome]. split; [exact R1|]. split; [apply shuffle_refl|exact F1].
    + apply (Same (D <- set_attribute n (mkAttr (QId a) v) (fst s) ;; Ok (D, snd s ++ [mkLink b iri fb n]))); cbn [do_act bind];
        [now destruct (set_attribute n _ (fst s))|reflexivity].
  - destruct y as [| |w|b w|b iri' fb'].
    + apply (Same (do_act (AcLink a iri fb) n s)); reflexivity.
    + exact Logic.I.
    + apply (Same (D <- set_id n w (fst s) ;; Ok (D, snd s ++ [mkLink a iri fb n]))); cbn [do_act bind]; [reflexivity|now destruct (set_id n w (fst s))].
    + apply (Same (D <- set_attribute n (mkAttr (QId b) w) (fst s) ;; Ok (D, snd s ++ [mkLink a iri fb n]))); cbn [do_act bind];
        [reflexivity|now destruct (set_attribute n _ (fst s))].
    + assert (Hab : a <> b) by (destruct Hn as [Hn|Hn]; [discriminate|intros ->; now apply Hn]).
      cbn [do_act bind same_outcome fst snd]. split; [now apply rel_refl|]. cbn [fst snd]. split; [|reflexivity].
      rewrite <- !app_assoc. apply shuffle_head. now apply sh_swap.
Qed.
Lemma body_sim P n x K s s' : psim K s s' -> same_outcome (psim K) (attr_body P n x s) (attr_body P n x s').
Proof.
  intros T. unfold attr_body. destruct (known_ns (x_ns x)); [|exact T]. destruct (attribute_from_str (x_name x)) as [[a|]| |]; try exact Logic.I; [|exact T].
  cbn [bind]. unfold parse_svg_attribute.
  assert (Id : same_outcome (psim K) (D <- set_id n (x_value x) (fst s) ;; Ok (D, snd s)) (D <- set_id n (x_value x) (fst s') ;; Ok (D, snd s'))).
  { destruct T as (R & S & E). destruct (is_element (fst s) n) eqn:He.
    - pose proof (set_id_sim n (x_value x) _ _ R (legal_id n (x_value x) _ (element_exists _ n (rl_reach _ _ R) He))) as C. cbn [step] in C.
      rewrite (set_id_ok n _ _ He) in C |- *. destruct (set_id n (x_value x) (fst s')); try contradiction. cbn [bind same_outcome].
      split; [exact C|]. split; [exact S|exact E].
    - unfold set_id. now rewrite (rel_element _ _ n R), He. }
  destruct a; try exact T; try exact Id; now apply value_sim.
Qed.
Lemma nodup_tail {A} (l1 l2 : list A) : NoDup (l1 ++ l2) -> NoDup l2.
Proof. induction l1 as [|x l IH]; [easy|]. cbn [app]. intros H. inversion H; subst. now apply IH. Qed.
Lemma svg_attributes_two x y l : svg_attributes (x :: y :: l) = svg_attributes [x] ++ svg_attributes [y] ++ svg_attributes l.
Proof. unfold svg_attributes. cbn [flat_map]. now rewrite !app_nil_r. Qed.
Lemma svg_attributes_perm l l' : Permutation l l' -> Permutation (svg_attributes l) (svg_attributes l').
Proof. intros H. unfold svg_attributes. now apply Permutation_flat_map. Qed.
Lemma attributes_perm P n attrs attrs' : Permutation attrs attrs' -> NoDup (map fst (svg_attributes attrs)) ->
  forall K s s', psim K s s' -> is_element (fst s) n = true ->
  same_outcome (psim K) (parse_attributes P attrs n s) (parse_attributes P attrs' n s').
Proof.
  intros Pm. induction Pm as [|x l l' Pm IH|x y l|l l' l'' P1 IH1 P2 IH2]; intros N K s s' T He; rewrite ?attributes_body in *.
  - exact T.
  - cbn [for_each]. assert (N' : NoDup (map fst (svg_attributes l))).
    { unfold svg_attributes in N. cbn [flat_map] in N. fold (svg_attributes l) in N. rewrite map_app in N. exact (nodup_tail _ _ N). }
    pose proof (body_sim P n x K s s' T) as B.
    destruct (act_cases (act_of P (tag_id (fst s) n) x) n s (conj (rl_reach _ _ (proj1 T)) He)) as [((k & Ek) & _)|(s1 & E1 & El1 & _)];
      [intros a v; apply act_plain| |].
    + rewrite (body_do P n x s), Ek in B |- *. now destruct (attr_body P n x s').
    + rewrite (body_do P n x s), E1 in B |- *. destruct (attr_body P n x s') as [s1'| |]; try contradiction. cbn [bind].
      specialize (IH N' K s1 s1' B (proj2 El1)). now rewrite !attributes_body in IH.
  - cbn [for_each]. pose proof (rl_reach' _ _ (proj1 T)) as H'.
    assert (El' : elem n s') by (split; [exact H'|now rewrite (rel_element _ _ n (proj1 T))]).
    assert (Ass : forall a b (f : pstate -> res pstate) t, (t <- attr_body P n a t ;; t <- attr_body P n b t ;; f t) = (t <- (t <- attr_body P n a t ;; attr_body P n b t) ;; f t)).
    { intros a b f t. now destruct (attr_body P n a t). }
    rewrite !Ass. apply (outcome_bind (psim K)); [|intros a b Ta; apply each_sim; [intros z u v; apply body_sim|exact Ta]].
    apply (outcome_trans (psim K) _ (t <- attr_body P n y s' ;; attr_body P n x t)); [exact (psim_trans K)| |].
    + apply (outcome_bind (psim K)); [now apply body_sim|]. intros a b Ta. now apply body_sim.
    + assert (Tr : forall a b, (t <- attr_body P n a s' ;; attr_body P n b t) =
        (t <- do_act (act_of P (tag_id (fst s') n) a) n s' ;; do_act (act_of P (tag_id (fst s') n) b) n t)).
      { intros a b. rewrite body_do. destruct (act_cases (act_of P (tag_id (fst s') n) a) n s' El') as [((k & Ek) & _)|(s1 & E1 & _ & Et & _)];
          [intros c v; apply act_plain| |].
        - now rewrite Ek.
        - rewrite E1. cbn [bind]. rewrite body_do, Et. reflexivity. }
      rewrite !Tr. assert (EK : K = fresh (fst s')) by (rewrite (rl_fresh _ _ (proj1 T)); symmetry; apply T). rewrite EK.
      apply acts_swap; [exact El'|intros c v; apply act_plain|intros c v; apply act_plain|].
      destruct (act_name (act_of P (tag_id (fst s') n) y)) as [a|] eqn:Ea; [right|now left].
      destruct (act_name (act_of P (tag_id (fst s') n) x)) as [b|] eqn:Eb; [|discriminate].
      apply act_named in Ea, Eb. destruct Ea as (va & Ea), Eb as (vb & Eb). rewrite svg_attributes_two, Ea, Eb in N. cbn [app map fst] in N.
      intros [= ->]. inversion N as [|? ? Hn _]; subst. apply Hn. now left.
  - assert (N' : NoDup (map fst (svg_attributes l'))).
    { apply (Permutation_NoDup (l := map fst (svg_attributes l))); [|exact N]. now apply Permutation_map, svg_attributes_perm. }
    pose proof (rl_reach _ _ (proj1 T)) as H. assert (Ts : psim K s s) by (destruct T as (_ & _ & <-); now apply psim_refl).
    apply (outcome_trans (psim K) _ (for_each (attr_body P n) l' s)); [exact (psim_trans K)| |].
    + specialize (IH1 N K s s Ts He). now rewrite !attributes_body in IH1.
    + specialize (IH2 N' K s s' T He). now rewrite !attributes_body in IH2.
Qed.

(* ---- plain names and style sheets *)
Lemma ostr_eqb_none o : ostr_eqb o None = true <-> o = None.
Proof. destruct o; cbn; split; congruence. Qed.
Lemma plain_perm name attrs attrs' : NoDup (map (fun x => (x_ns x, x_name x)) attrs) -> Permutation attrs attrs' ->
  plain_attribute name attrs' = plain_attribute name attrs.
Proof.
  intros N Pm. unfold plain_attribute. f_equal. set (p := fun x => ostr_eqb (x_ns x) None && str_eqb (x_name x) name).
  assert (Hp : forall x, p x = true <-> (x_ns x, x_name x) = (None, name)).
  { intros x. unfold p. rewrite andb_true_iff, ostr_eqb_none, str_eqb_eq. split; [intros (-> & ->); reflexivity|intros [= -> ->]; tauto]. }
  clearbody p. induction Pm as [|x l l' Pm IH|x y l|l l' l'' P1 IH1 P2 IH2]; cbn [find map] in *.
  - reflexivity.
  - inversion N; subst. now rewrite IH.
  - destruct (p x) eqn:Ex, (p y) eqn:Ey; try reflexivity. exfalso. apply Hp in Ex, Ey. inversion N as [|? ? Hn _]; subst. apply Hn. left. congruence.
  - rewrite IH2, IH1; [reflexivity|exact N|]. apply (Permutation_NoDup (l := map (fun x => (x_ns x, x_name x)) l)); [now apply Permutation_map|exact N].
Qed.
Scheme reordered_mind := Minimality for reordered Sort Prop
  with reordered_all_mind := Minimality for reordered_all Sort Prop.
Combined Scheme reordered_both from reordered_mind, reordered_all_mind.

Lemma css_texts_same : (forall x x', reordered x x' -> css_texts x' = css_texts x) /\
  (forall l l', reordered_all l l' -> flat_map css_texts l' = flat_map css_texts l /\
     match l, l' with XmlText s :: _, XmlText s' :: _ => s' = s | XmlText _ :: _, _ | _, XmlText _ :: _ => False | _, _ => True end).
Proof.
  apply reordered_both; try reflexivity.
  - intros ns local attrs attrs' kids kids' (U & _) Pm _ (IH & Ht). cbn [css_texts]. rewrite IH. f_equal.
    destruct (str_eqb local (lit "style")); [|reflexivity]. unfold style_text. rewrite (plain_perm _ _ _ U Pm).
    assert (E : match kids' with XmlText s :: _ => [s] | _ => [] end = match kids with XmlText s :: _ => [s] | _ => [] end).
    { destruct kids as [|[| | |] k], kids' as [|[| | |] k']; try contradiction; try reflexivity. now rewrite Ht. }
    now rewrite E.
  - now split.
  - intros x x' l l' Rx Ix _ (IH & _). cbn [flat_map]. rewrite Ix, IH. split; [reflexivity|]. inversion Rx; subst; easy.
Qed.
Lemma sheet_same P top top' : reordered_all top top' -> resolve_css P top' = resolve_css P top.
Proof. intros H. unfold resolve_css. now rewrite (proj1 (proj2 css_texts_same _ _ H)). Qed.

(* ---- the tree *)
Definition gsim (K : nat) (s s' : pstate) : Prop := rel (fst s) (fst s') /\ shuffle (snd s) (snd s') /\ K <= fresh (fst s).
Definition pres (K : nat) (r r' : presult pstate) : Prop :=
  match r, r' with POk s, POk s' => gsim K s s' | PErr e, PErr e' => e' = e | _, _ => False end.
Lemma rel_filter_svg D D' l : rel D D' -> filter_svg D' l = filter_svg D l.
Proof. intros R. induction l as [|n l IH]; [reflexivity|]. cbn [filter_svg]. rewrite (si_tag _ _ _ (rl_all _ _ R n)), IH. reflexivity. Qed.
Lemma check_sim K p s s' : gsim K s s' -> same_outcome (pres K) (check_first p s) (check_first p s').
Proof.
  intros T. pose proof T as (R & _). unfold check_first, enough, is_root. cbv zeta. rewrite (si_type _ _ _ (rl_all _ _ R p)).
  destruct (ntype_eqb _ _); [|exact T]. rewrite (rl_fresh _ _ R), (rl_root _ _ R), (rel_children _ _ R), (rel_list _ _ R).
  destruct (children_list _ _ _) as [l| |]; try exact Logic.I. cbn [bind]. rewrite (rel_filter_svg _ _ l R).
  destruct (filter_svg (fst s) l) as [|[id k] m]; [exact T|]. cbn [same_outcome]. destruct (eid_eqb id E_Svg); [exact T|reflexivity].
Qed.
Lemma append_sim K p n s s' : gsim K s s' -> exists_node (fst s) p -> exists_node (fst s) n ->
  same_outcome (gsim K) (append_node p n s) (append_node p n s').
Proof.
  intros (R & S & H) Hp Hn. assert (L : legal (OAppend p n) (fst s)) by (split; [intros m [<-|[<-|[]]]; assumption|exact Logic.I]).
  pose proof (move_sim (OAppend p n) _ _ R L Logic.I) as M. cbn [step] in M. unfold on_links in M. unfold append_node.
  destruct (append [] p n (lk (fst s))) as [L1| |], (append [] p n (lk (fst s'))) as [L1'| |]; try contradiction; try exact Logic.I.
  cbn [bind same_outcome] in *. split; [exact M|]. cbn [fst snd]. split; [exact S|exact H].
Qed.
Lemma leaf_sim ty text p s s' K : gsim K s s' -> exists_node (fst s) p -> same_outcome (gsim K) (add_leaf ty text p s) (add_leaf ty text p s').
Proof.
  intros (R & S & H) Hp. unfold add_leaf. pose proof (create_node_sim ty text _ _ R) as C. pose proof (create_node_keeps ty text (fst s)) as X.
  destruct (create_node ty text (fst s)) as [r| |], (create_node ty text (fst s')) as [r'| |]; try contradiction; try exact Logic.I.
  cbn [bind]. destruct C as (Cf & C). rewrite Cf. destruct (X r eq_refl) as (e1 & _ & e2). unfold exists_node in *. apply append_sim.
  - split; [exact C|]. cbn [fst snd]. split; [exact S|lia].
  - unfold exists_node. cbn [fst]. lia.
  - unfold exists_node. cbn [fst]. lia.
Qed.

Lemma pres_mono K K' r r' : K' <= K -> pres K r r' -> pres K' r r'.
Proof. intros H. destruct r, r'; cbn; try easy. intros (h1 & h2 & h3). split; [exact h1|]. split; [exact h2|lia]. Qed.
Section T.
  Variables (P : values) (rules : list rule) (top top' : list xml).
  Hypothesis Hr : forall r, In r rules -> forall path, r_matches r top' path = r_matches r top path.
  Lemma nodes_sim :
    (forall x x', reordered x x' -> forall path p s s', gsim (fresh (fst s)) s s' -> exists_node (fst s) p ->
       same_outcome (pres (fresh (fst s))) (process_node P rules top path x p s) (process_node P rules top' path x' p s')) /\
    (forall l l', reordered_all l l' -> forall path i p s s', gsim (fresh (fst s)) s s' -> exists_node (fst s) p ->
       same_outcome (pres (fresh (fst s))) (process_nodes P rules top path i l p s) (process_nodes P rules top' path i l' p s')).
  Proof.
    apply reordered_both.
    - intros ns local attrs attrs' kids kids' U Pm _ IH path p s s' T Hp. cbn [process_node].
      destruct (ostr_eqb ns (Some ns_svg)) eqn:En; cbn [negb]; [|exact T].
      assert (Ns : ns = Some ns_svg).
      { destruct ns as [q|]; [|discriminate]. cbn [ostr_eqb] in En. apply str_eqb_eq in En. now rewrite En. }
      destruct (element_from_str local) as [[id|]| |]; try exact Logic.I; [|exact T]. cbn [bind].
      pose proof T as (R & S & _). pose proof (create_element_sim (QId id) _ _ R) as C.
      pose proof (create_element_keeps (QId id) (fst s)) as X. pose proof (create_element_api (fst s) (QId id) (rl_reach _ _ R)) as (_ & Y).
      destruct (Y ltac:(discriminate)) as (e & D1 & Ec & _ & Ety & _ & _). rewrite Ec in C, X |- *. clear Y.
      destruct (create_element (QId id) (fst s')) as [r'| |]; try contradiction. destruct C as (Cf & C). cbn [bind fst snd] in *. subst e.
      specialize (X _ eq_refl). cbn [fst snd] in X. destruct X as (e1 & _ & e2). unfold exists_node in Hp.
      assert (T1 : psim (fresh D1) (D1, snd s) (snd r', snd s')) by (split; [exact C|]; split; [exact S|reflexivity]).
      assert (He : is_element D1 (fst r') = true) by (unfold is_element; now rewrite Ety).
      pose proof (attributes_perm P (fst r') attrs attrs' Pm (proj2 U Ns) _ _ _ T1 He) as A.
      eapply outcome_bind; [exact A|]. clear A. intros a a' Ta.
      eapply outcome_bind; [now apply (rules_sim P rules top top' path (fst r') (fresh D1))|]. intros b b' Tb.
      rewrite (plain_perm _ _ _ (proj1 U) Pm).
      eapply (outcome_bind (psim (fresh D1))); [destruct (plain_attribute _ _); [now apply style_sim|exact Tb]|]. intros c c' Tc.
      eapply outcome_bind; [apply (append_sim (fresh D1))|].
      { split; [apply Tc|]. split; [apply Tc|]. destruct Tc as (_ & _ & ->). lia. }
      { unfold exists_node. destruct Tc as (_ & _ & ->). lia. }
      { unfold exists_node. destruct Tc as (_ & _ & ->). lia. }
      intros d d' Td. rewrite !go_nodes.
      destruct Td as (Rd & Sd & Hd).
      eapply outcome_bind; [apply IH; [split; [exact Rd|]; split; [exact Sd|apply le_n]|unfold exists_node; lia]|].
      intros [u|er] [v|er']; cbn [pres]; try contradiction; [|intros ->; reflexivity]. intros (Ru & Su & Hu). apply check_sim.
      split; [exact Ru|]. split; [exact Su|lia].
    - intros q path p s s' T Hp. cbn [process_node].
      apply (outcome_bind (gsim (fresh (fst s)))); [|intros a b; apply check_sim].
      destruct (blank_str q); [|now apply leaf_sim]. rewrite (rel_tag_id _ _ p (proj1 T)). destruct (keeps_white _); [now apply leaf_sim|exact T].
    - intros q path p s s' T Hp. cbn [process_node]. apply (outcome_bind (gsim (fresh (fst s)))); [now apply leaf_sim|intros a b; apply check_sim].
    - intros path p s s' T Hp. now apply check_sim.
    - intros path i p s s' T _. exact T.
    - intros x x' l l' _ IHx _ IHl path i p s s' T Hp. cbn [process_nodes]. eapply outcome_bind; [now apply IHx|].
      intros [a|e] [b|e']; cbn [pres]; try contradiction; [|intros ->; reflexivity]. intros (Ra & Sa & Ha).
      eapply outcome_mono; [|apply IHl; [split; [exact Ra|]; split; [exact Sa|apply le_n]|unfold exists_node in *; lia]].
      intros u v. now apply pres_mono.
  Qed.
End T.

(* ---- references *)
Definition rooted (D : dom) : Prop := exists F t, Rep (lk D) F /\ tree_at F t /\ t_node t = droot D /\
  length (preorder t) <= fresh D /\ (forall x, In x (preorder t) -> x < fresh D).
Lemma rooted_same D D' : same_nodes D D' -> rooted D -> rooted D'.
Proof.
  intros N (F & t & H1 & H2 & H3 & H4 & H5). exists F, t. rewrite (sn_links _ _ N), (sn_root _ _ N), (sn_count _ _ N). tauto.
Qed.
Lemma find_ok D p : rooted D -> exists o, find_descendant (2 * enough D) D p (traverse (droot D)) = Ok o /\ (forall x, o = Some x -> exists_node D x).
Proof.
  intros (F & t & H1 & H2 & H3 & H4 & H5). exists (find p (preorder t)). split.
  - rewrite <- H3. apply (find_descendant_spec D F t p H1 H2). unfold enough. lia.
  - intros x Hx. apply find_some in Hx. apply H5, Hx.
Qed.
Lemma find_sim D D' p q : rel D D' -> (forall n, q n = p n) -> forall fuel it, find_descendant fuel D' q it = find_descendant fuel D p it.
Proof.
  intros R H. induction fuel as [|f IH]; intros it; [reflexivity|]. cbn [find_descendant]. rewrite (descendants_sim _ _ R).
  destruct (descendants_next (S f) (lk D) it) as [[[n|] it']| |]; try reflexivity. cbn [bind]. rewrite H, IH. reflexivity.
Qed.
Lemma find_same D D' p q : lk D' = lk D -> (forall n, q n = p n) -> forall fuel it, find_descendant fuel D' q it = find_descendant fuel D p it.
Proof.
  intros R H. induction fuel as [|f IH]; intros it; [reflexivity|]. cbn [find_descendant]. rewrite R.
  destruct (descendants_next (S f) (lk D) it) as [[[n|] it']| |]; try reflexivity. cbn [bind]. rewrite H, IH. reflexivity.
Qed.
Definition look (D : dom) (d : link) : option nid :=
  match find_descendant (2 * enough D) D (fun n => str_eqb (id_of D n) (l_iri d)) (traverse (droot D)) with Ok o => o | _ => None end.
Lemma look_eq D d : rooted D ->
  find_descendant (2 * enough D) D (fun n => str_eqb (id_of D n) (l_iri d)) (traverse (droot D)) = Ok (look D d) /\
  (forall x, look D d = Some x -> exists_node D x).
Proof. intros H. destruct (find_ok D (fun n => str_eqb (id_of D n) (l_iri d)) H) as (o & E & X). unfold look. rewrite E. now split. Qed.
Lemma look_same D D' d : same_nodes D D' -> look D' d = look D d.
Proof.
  intros N. unfold look, enough. rewrite (sn_count _ _ N), (sn_root _ _ N).
  rewrite (find_same D D' (fun n => str_eqb (id_of D n) (l_iri d))); [reflexivity|apply N|]. intros n. now rewrite (sn_id _ _ N).
Qed.
(* the value an attribute gets *)
Definition outcome_of (D : dom) (d : link) : option avalue :=
  match look D d with
  | Some x => match refused D (l_node d) (asked d x) with
              | Some _ => None
              | None => Some (shape (QId (l_attr d)) (a_value (asked d x)))
              end
  | None => Some (unresolved d)
  end.
Definition put (a : aid) (o : option avalue) (l : list attr) : list attr :=
  match o with Some v => others (QId a) l ++ [mkAttr (QId a) v] | None => l end.
Definition rr (D D' : dom) : Prop := rel D D' /\ rooted D.

Lemma resolve_cases D d : reachable D -> rooted D -> is_element D (l_node d) = true ->
  exists D', resolve_link d D = Ok D' /\ reachable D' /\ same_nodes D D' /\
    attributes D' (l_node d) = put (l_attr d) (outcome_of D d) (attributes D (l_node d)) /\
    (forall m, m <> l_node d -> attributes D' m = attributes D m).
Proof.
  intros H Ro He. destruct (look_eq D d Ro) as (E & X). unfold resolve_link. rewrite E. cbn [bind]. unfold outcome_of.
  pose proof (element_exists D _ H He) as Hn. destruct (look D d) as [x|].
  - fold (asked d x). pose proof (checked_cases D (l_node d) (asked d x) H He) as C. rewrite asked_name in C.
    destruct (refused D (l_node d) (asked d x)).
    + rewrite C. cbn [bind fst put]. exists D. split; [reflexivity|]. split; [exact H|]. split; [now split|]. now split.
    + destruct C as (D' & C & N & A & O). exists D'. rewrite C. cbn [bind fst put]. split; [reflexivity|]. split.
      * apply (reach_step D (OSetAttributeChecked (l_node d) (asked d x)) D' H).
        -- split; [|exact Logic.I]. cbn [handles]. rewrite asked_target. intros m [<-|[<-|[]]]; [exact Hn|now apply X].
        -- cbn [step]. now rewrite C.
      * split; [exact N|]. split; [exact A|exact O].
  - destruct (plain_set D (l_node d) (mkAttr (QId (l_attr d)) (unresolved d)) H He) as (D' & C & H' & N & A & O).
    + cbn [a_value]. rewrite unresolved_eq. apply instead_plain.
    + exists D'. cbn [put a_name] in *. tauto.
Qed.
Lemma resolve_panics D d : rooted D -> is_element D (l_node d) = false -> exists k, resolve_link d D = Panic k.
Proof.
  intros Ro He. destruct (look_eq D d Ro) as (E & _). unfold resolve_link. rewrite E. cbn [bind]. destruct (look D d) as [x|].
  - unfold set_attribute_checked. rewrite He. eexists. reflexivity.
  - unfold set_attribute, set_attribute_checked. rewrite He. eexists. reflexivity.
Qed.
Lemma resolve_sim d D D' : rr D D' -> same_outcome rr (resolve_link d D) (resolve_link d D').
Proof.
  intros (R & Ro). destruct (look_eq D d Ro) as (E & X).
  assert (E' : find_descendant (2 * enough D') D' (fun n => str_eqb (id_of D' n) (l_iri d)) (traverse (droot D')) = Ok (look D d)).
  { rewrite <- E. unfold enough. rewrite (rl_fresh _ _ R), (rl_root _ _ R). apply find_sim; [exact R|].
    intros n. now rewrite (si_id _ _ _ (rl_all _ _ R n)). }
  destruct (is_element D (l_node d)) eqn:He.
  - destruct (resolve_cases D d (rl_reach _ _ R) Ro He) as (D1 & C & _ & N & _).
    assert (G : same_outcome rel (resolve_link d D) (resolve_link d D')).
    { unfold resolve_link. rewrite E, E'. cbn [bind]. destruct (look D d) as [x|].
      - fold (asked d x). eapply outcome_bind; [apply checked_sim; [exact R|]|intros r r' (Q & _); exact Q].
        split; [|exact Logic.I]. cbn [handles]. rewrite asked_target. intros m [<-|[<-|[]]]; [|now apply X].
        exact (element_exists D _ (rl_reach _ _ R) He).
      - eapply outcome_mono; [|apply set_plain_sim; [exact R|]]; [intros a b (Q & _); exact Q|]. cbn [a_value]. rewrite unresolved_eq. apply instead_plain. }
    rewrite C in G |- *. destruct (resolve_link d D'); try contradiction. split; [exact G|]. now apply (rooted_same D).
  - destruct (resolve_panics D d Ro He) as (k & Ek). rewrite Ek. unfold resolve_link. rewrite E'. cbn [bind]. destruct (look D d) as [x|].
    + unfold set_attribute_checked. rewrite (rel_element _ _ _ R), He. exact Logic.I.
    + unfold set_attribute, set_attribute_checked. rewrite (rel_element _ _ _ R), He. exact Logic.I.
Qed.
Lemma put_swap a b o o' l : a <> b -> Permutation (put a o (put b o' l)) (put b o' (put a o l)).
Proof.
  intros Hab. destruct o as [v|], o' as [w|]; cbn [put]; try reflexivity. unfold others. rewrite !filter_app. cbn [filter a_name].
  assert (X : aname_eqb (QId b) (QId a) = false) by (destruct (aname_eqb (QId b) (QId a)) eqn:Q; [apply aname_eqb_eq in Q; congruence|reflexivity]).
  assert (Y : aname_eqb (QId a) (QId b) = false) by (destruct (aname_eqb (QId a) (QId b)) eqn:Q; [apply aname_eqb_eq in Q; congruence|reflexivity]).
  rewrite X, Y. cbn [negb]. rewrite filter_twice, <- !app_assoc. apply Permutation_app_head, perm_swap.
Qed.
Lemma outcome_kept D D' d : same_nodes D D' -> (forall m, m <> l_node d -> attributes D' m = attributes D m) -> outcome_of D' d = outcome_of D d.
Proof.
  intros N O. unfold outcome_of. rewrite (look_same D D' d N). destruct (look D d) as [x|]; [|reflexivity].
  assert (E : refused D' (l_node d) (asked d x) = refused D (l_node d) (asked d x)); [|now rewrite E].
  unfold refused. rewrite asked_target, !(sn_id _ _ N). destruct (str_eqb (id_of D x) []); [reflexivity|].
  destruct (str_eqb (id_of D (l_node d)) (id_of D x)) eqn:Ei; [reflexivity|].
  assert (Hx : x <> l_node d) by (intros ->; assert (str_eqb (id_of D (l_node d)) (id_of D (l_node d)) = true) by (now apply str_eqb_eq); congruence).
  unfold uses. now rewrite (O x Hx).
Qed.
Lemma resolve_swap d d' D : reachable D -> rooted D -> l_node d = l_node d' -> l_attr d <> l_attr d' ->
  same_outcome rr (D <- resolve_link d D ;; resolve_link d' D) (D <- resolve_link d' D ;; resolve_link d D).
Proof.
  intros H Ro En Ea. destruct (is_element D (l_node d)) eqn:He.
  - assert (He' : is_element D (l_node d') = true) by congruence.
    destruct (resolve_cases D d H Ro He) as (D1 & C1 & H1 & N1 & A1 & O1). destruct (resolve_cases D d' H Ro He') as (D2 & C2 & H2 & N2 & A2 & O2).
    assert (He1 : is_element D1 (l_node d') = true) by (unfold is_element in *; now rewrite (sn_type _ _ N1)).
    assert (He2 : is_element D2 (l_node d) = true) by (unfold is_element in *; now rewrite (sn_type _ _ N2)).
    destruct (resolve_cases D1 d' H1 (rooted_same _ _ N1 Ro) He1) as (D12 & C12 & H12 & N12 & A12 & O12).
    destruct (resolve_cases D2 d H2 (rooted_same _ _ N2 Ro) He2) as (D21 & C21 & H21 & N21 & A21 & O21).
    rewrite C1, C2. cbn [bind]. rewrite C12, C21.
    assert (T : forall A B C, same_nodes A B -> same_nodes B C -> same_nodes A C).
    { intros A B C X Y. split; try (etransitivity; [apply Y|apply X]); intros m; (etransitivity; [apply Y|apply X]). }
    split; [|apply (rooted_same _ _ N12), (rooted_same _ _ N1), Ro].
    apply (attrs_sim D D); try assumption; [now apply rel_refl|now apply (T _ D1)|now apply (T _ D2)|].
    intros m. destruct (Nat.eq_dec m (l_node d)) as [->|Hm].
    + rewrite A21. rewrite (outcome_kept D D2 d N2) by (rewrite En; exact O2). rewrite En in A1 |- *. rewrite A2, A12, A1.
      rewrite (outcome_kept D D1 d' N1) by (rewrite <- En; exact O1). now apply put_swap.
    + assert (Hm' : m <> l_node d') by congruence. now rewrite (O12 m Hm'), (O21 m Hm), (O1 m Hm), (O2 m Hm').
  - destruct (resolve_panics D d Ro He) as (k & Ek). rewrite En in He. destruct (resolve_panics D d' Ro He) as (k' & Ek').
    rewrite Ek, Ek'. exact Logic.I.
Qed.
Lemma rr_trans a b c : rr a b -> rr b c -> rr a c.
Proof. intros (R & X) (R' & _). split; [now apply (rel_trans _ b)|exact X]. Qed.
Lemma links_each l : forall D D', rr D D' -> same_outcome rr (resolve_links l D) (resolve_links l D').
Proof.
  unfold resolve_links. induction l as [|d l IH]; intros D D' T; [exact T|]. cbn [for_each].
  apply (outcome_bind rr); [now apply resolve_sim|intros a b; apply IH].
Qed.
Lemma links_shuffled l l' : shuffle l l' -> forall D D', rr D D' -> same_outcome rr (resolve_links l D) (resolve_links l' D').
Proof.
  unfold resolve_links. induction 1 as [|d l l' _ IH|d d' l h1 h2|l l' l'' _ IH1 _ IH2]; intros D D' T.
  - exact T.
  - cbn [for_each]. apply (outcome_bind rr); [now apply resolve_sim|intros a b; apply IH].
  - cbn [for_each].
    assert (Ass : forall a b (f : dom -> res dom) t, (t <- resolve_link a t ;; t <- resolve_link b t ;; f t) = (t <- (t <- resolve_link a t ;; resolve_link b t) ;; f t)).
    { intros a b f t. now destruct (resolve_link a t). }
    rewrite !Ass. apply (outcome_bind rr); [|intros a b Ta; now apply links_each].
    apply (outcome_trans rr _ (t <- resolve_link d' D ;; resolve_link d t)); [exact rr_trans| |].
    + apply resolve_swap; [apply T|apply T|exact h1|exact h2].
    + apply (outcome_bind rr); [now apply resolve_sim|intros a b; apply resolve_sim].
  - apply (outcome_trans rr _ (for_each resolve_link l' D)); [exact rr_trans| |].
    + apply IH1. split; [apply rel_refl, T|apply T].
    + now apply IH2.
Qed.

(* ---- only attributes of SVG *)
Definition named (D : dom) : Prop := forall n a, In a (attributes D n) -> exists i, a_name a = QId i.
Lemma built_named P D l ts ls : built P D l ts ls -> forall n, In n (flat_map preorder ts) -> is_element D n = true ->
  forall a, In a (attributes D n) -> exists i, a_name a = QId i.
Proof.
  induction 1 as [|e id ds ks l n ts us l1 l2 T _ _ A _ IH1 _ IH2|s l n us l2 T _ _ IH|s l n us l2 T _ _ IH]; cbn [flat_map preorder]; intros m Hm He x Hx.
  - contradiction.
  - cbn [app] in Hm. destruct Hm as [<-|Hm].
    + destruct x as [q v]. apply A in Hx. destruct Hx as (i & -> & _). now exists i.
    + apply in_app_iff in Hm. destruct Hm as [Hm|Hm]; [now apply (IH1 m)|now apply (IH2 m)].
  - cbn [app] in Hm. destruct Hm as [<-|Hm]; [unfold is_element in He; rewrite T in He; discriminate|now apply (IH m)].
  - cbn [app] in Hm. destruct Hm as [<-|Hm]; [unfold is_element in He; rewrite T in He; discriminate|now apply (IH m)].
Qed.
Lemma resolve_named l : forall D D', reachable D -> rooted D -> named D -> resolve_links l D = Ok D' -> named D'.
Proof.
  unfold resolve_links. induction l as [|d l IH]; intros D D' H Ro N E; cbn [for_each] in E; [injection E as <-; exact N|].
  destruct (is_element D (l_node d)) eqn:He.
  - destruct (resolve_cases D d H Ro He) as (D1 & C & H1 & S1 & A & O). rewrite C in E. cbn [bind] in E.
    apply (IH D1 D' H1 (rooted_same _ _ S1 Ro)); [|exact E]. intros m a Ha. destruct (Nat.eq_dec m (l_node d)) as [->|Hm].
    + rewrite A in Ha. unfold put in Ha. destruct (outcome_of D d); [|now apply (N _ _ Ha)]. apply in_app_iff in Ha. destruct Ha as [Ha|[<-|[]]].
      * unfold others in Ha. apply filter_In in Ha. apply (N _ _ (proj1 Ha)).
      * now exists (l_attr d).
    + rewrite (O m Hm) in Ha. now apply (N _ _ Ha).
  - destruct (resolve_panics D d Ro He) as (k & Ek). rewrite Ek in E. discriminate.
Qed.

(* ---- the whole document *)
Lemma drained_rooted P top D0 s r : new_document = Ok D0 ->
  process_nodes P (resolve_css P top) top [] 0 top (droot D0) (D0, []) = Ok (POk s) ->
  drain (droot (fst s)) is_style (fst s) = Ok r -> rooted (fst r) /\ reachable (fst r) /\ named (fst r).
Proof.
  intros E0 E Ed. pose proof (started_new D0 E0) as S0.
  destruct (top_nodes P (resolve_css P top) top [] top 0 D0 empty_forest [] [] [] [] S0) as (H1 & H2); try easy.
  { constructor. }
  { now left. }
  cbn [app] in *.
  assert (C : svg_first (svg_parts P (resolve_css P top) top None [] 0 top) \/ ~ svg_first (svg_parts P (resolve_css P top) top None [] 0 top)).
  { unfold svg_first. destruct (first_element _) as [e|]; [|left; now left]. destruct (eid_eqb e E_Svg) eqn:X.
    - left. right. apply eid_eqb_svg in X. now subst e.
    - right. intros [[=]|[= ->]]. discriminate X. }
  destruct C as [C|C]; [|rewrite (H2 C) in E; discriminate].
  destruct (H1 C) as (D & F0 & ts & ls & G & E1). rewrite E1 in E. injection E as <-. cbn [fst] in *.
  pose proof (gw_started _ _ _ _ _ _ _ _ _ G) as St. pose proof (st_inv _ _ St) as I.
  pose proof (gw_root _ _ _ _ _ _ _ _ _ G) as Hroot.
  assert (Hkids : children_of F0 (droot D) = map t_node ts).
  { rewrite Hroot, (gw_kids _ _ _ _ _ _ _ _ _ G). easy. }
  set (t0 := T (droot D) ts). assert (Ht0 : tree_at F0 t0) by (constructor; [easy|apply G]).
  assert (Hstable : stable is_style D).
  { intros S D' R x Hx. unfold is_style, has_tag_name. now rewrite (rv_tag _ _ _ R). }
  destruct (drain_spec D F0 t0 is_style I Ht0 (iv_rlt D F0 I) Hstable) as (D1 & Ed1 & I1 & R1 & T1).
  change (t_node t0) with (droot D) in Ed1. rewrite Ed1 in Ed. injection Ed as <-. cbn [fst].
  assert (Ra : reachable D) by exact (calls_reachable _ _ _ (gw_calls _ _ _ _ _ _ _ _ _ G) (reach_new D0 E0)).
  split; [|split].
  2: { apply (reach_step D (ODrain (droot D) is_style) D1 Ra); [|cbn [step]; now rewrite Ed1].
       split; [|exact Hstable || exact Logic.I]. intros x [<-|[]]. apply I. }
  2: { intros n a Ha. rewrite (rv_attrs _ _ _ R1) in Ha. apply filter_In in Ha. destruct Ha as (Ha & _).
       destruct (is_element D n) eqn:He; [|destruct (iv_plain D F0 I n He) as (X & _); rewrite X in Ha; contradiction].
       destruct (Nat.lt_ge_cases n (fresh D)) as [Hn|Hn].
       - destruct (Nat.lt_ge_cases n (fresh D0)) as [Hn0|Hn0].
         + unfold attributes in Ha. rewrite (gw_data _ _ _ _ _ _ _ _ _ G n Hn0) in Ha. exfalso. revert n Ha Hn0 He Hn.
           destruct new_document_inv as (D0' & X & I0 & Hf & Hr0 & _). rewrite X in E0. injection E0 as ->. intros n Ha Hn0 He Hn. rewrite Hf in Hn0.
           destruct (iv_plain D0 empty_forest I0 n) as (Y & _); [|unfold attributes in Y; rewrite Y in Ha; contradiction].
           unfold is_element. replace (node_type D0 n) with NRoot; [reflexivity|]. symmetry. apply (iv_root D0 _ I0); lia.
         + apply (built_named _ _ _ _ _ (gw_built _ _ _ _ _ _ _ _ _ G) n); try assumption. apply (gw_new _ _ _ _ _ _ _ _ _ G). lia.
       - destruct (blank_facts D F0 n I) as (X & _); [lia|]. rewrite X in Ha. contradiction. }
  eexists _, _. split; [exact (iv_rep _ _ I1)|]. split; [exact T1|]. split; [exact (eq_sym (rv_root _ _ _ R1))|]. split.
  - apply (tree_size D1 _ _ I1 T1). change (t_node (drained (is_style D) t0)) with (droot D). rewrite (rv_fresh _ _ _ R1). apply I.
  - intros x Hx. rewrite (rv_fresh _ _ _ R1). apply keep_nodes_in in Hx. unfold t0 in Hx. cbn [preorder] in Hx. destruct Hx as [<-|Hx]; [apply I|].
    apply (gw_new _ _ _ _ _ _ _ _ _ G), Hx.
Qed.
Lemma fair_style root : fair (ODrain root is_style).
Proof. intros D D' _ _ A x Hx. unfold is_style, has_tag_name. now rewrite (ak_tag _ _ A x Hx). Qed.
Definition dres (r r' : presult dom) : Prop :=
  match r, r' with POk D, POk D' => rel D D' | PErr e, PErr e' => e' = e | _, _ => False end.
Theorem parse_sim P top top' : reordered_all top top' -> same_matches P top top' ->
  same_outcome dres (parse_svg P (Some top)) (parse_svg P (Some top')).
Proof.
  intros Ro Sm. unfold parse_svg, parse_tree. rewrite (sheet_same P top top' Ro).
  destruct (new_document) as [D0| |] eqn:E0; try exact Logic.I. cbn [bind].
  assert (Hr : forall r, In r (resolve_css P top) -> forall path, r_matches r top' path = r_matches r top path).
  { intros r Hi. apply Sm. rewrite sheet_texts_eq. exact Hi. }
  pose proof (reach_new D0 E0) as H0. destruct (reachable_inv D0 H0) as (F & I & _).
  pose proof (proj2 (nodes_sim P (resolve_css P top) top top' Hr) top top' Ro [] 0 (droot D0) (D0, []) (D0, [])) as N.
  specialize (N (conj (rel_refl D0 H0) (conj sh_nil (le_n _))) (iv_rlt D0 F I)).
  pose proof (fun s r => drained_rooted P top D0 s r E0) as Q.
  destruct (process_nodes P (resolve_css P top) top [] 0 top (droot D0) (D0, [])) as [[s|e]| |],
    (process_nodes P (resolve_css P top) top' [] 0 top' (droot D0) (D0, [])) as [[s'|e']| |]; try contradiction; try exact Logic.I; try exact N.
  cbn [bind]. destruct N as (R & S & _). specialize (Q s).
  rewrite (svg_element_api _ _ (rl_reach _ _ R) (rl_reach' _ _ R) (rel_akin _ _ R)).
  destruct (svg_element (fst s)) as [[n|]| |]; try exact Logic.I; [|reflexivity]. cbn [bind]. rewrite (rl_root _ _ R).
  pose proof (drain_sim (droot (fst s)) is_style _ _ R (fair_style _)) as Dr.
  destruct (drain (droot (fst s)) is_style (fst s)) as [r| |], (drain (droot (fst s)) is_style (fst s')) as [r'| |]; try contradiction; try exact Logic.I.
  cbn [bind]. specialize (Q r eq_refl eq_refl).
  pose proof (links_shuffled _ _ S (fst r) (fst r') (conj (proj1 Dr) (proj1 Q))) as L.
  destruct (resolve_links (snd s) (fst r)) as [D2| |], (resolve_links (snd s') (fst r')) as [D2'| |]; try contradiction; try exact Logic.I.
  cbn [bind]. apply (outcome_bind rel); [apply prepare_text_sim, L|intros a b Rab; exact Rab].
Qed.
Theorem parse_api P top top' : reordered_all top top' -> same_matches P top top' ->
  parsed_alike (parse_svg P (Some top)) (parse_svg P (Some top')).
Proof.
  intros Ro Sm. pose proof (parse_sim P top top' Ro Sm) as S. destruct (parse_total P (Some top)) as (r & E), (parse_total P (Some top')) as (r' & E').
  rewrite E, E' in *. destruct r as [D|e], r' as [D'|e']; try contradiction; [|exact S]. exact (rel_akin _ _ S).
Qed.
Lemma parsed_named P top D : parse_svg P (Some top) = Ok (POk D) -> named D.
Proof.
  intros E. destruct (parse_run P top D E) as (_ & D1 & D2 & F & F3 & t & ls & R & Et).
  assert (N : named D2); [|intros n a Ha; rewrite (run_attrs3 _ _ _ _ _ _ _ _ _ R) in Ha; now apply (N n)].
  unfold parse_tree in Et. destruct new_document as [D0| |] eqn:E0; try discriminate Et. cbn [bind] in Et.
  destruct (process_nodes _ _ _ _ _ _ _ _) as [[s|e]| |] eqn:Es; try discriminate Et. cbn [bind] in Et.
  destruct (svg_element (fst s)) as [[n|]| |]; try discriminate Et. cbn [bind] in Et.
  destruct (drain _ _ _) as [r| |] eqn:Ed; try discriminate Et. cbn [bind] in Et.
  destruct (drained_rooted P top D0 s r E0 Es Ed) as (Ro & H & N).
  destruct (resolve_links (snd s) (fst r)) as [D2'| |] eqn:El; try discriminate Et. cbn [bind] in Et. injection Et as ->.
  exact (resolve_named _ _ _ H Ro N El).
Qed.
Lemma named_custom D n : named D -> custom_attrs D n = [].
Proof.
  intros N. unfold custom_attrs. specialize (N n). induction (attributes D n) as [|a l IH]; [reflexivity|]. cbn [filter].
  destruct (N a (or_introl eq_refl)) as (i & ->). apply IH. intros b Hb. apply N. now right.
Qed.
Theorem parse_written P W top top' D D' : reordered_all top top' -> same_matches P top top' ->
  parse_svg P (Some top) = Ok (POk D) -> parse_svg P (Some top') = Ok (POk D') -> write_dom W D' = write_dom W D.
Proof.
  intros Ro Sm E E'. pose proof (parse_api P top top' Ro Sm) as A. rewrite E, E' in A.
  apply written_api; [| |exact A|].
  - apply tame_reachable, (parsed_reachable P top D E).
  - apply tame_reachable, (parsed_reachable P top' D' E').
  - intros n _. now rewrite !named_custom by (eapply parsed_named; eassumption).
Qed.

(* ---- selectors of CSS *)
Lemma at_related : forall path top top', reordered_all top top' ->
  match xml_at top path, xml_at top' path with
  | Some x, Some x' => reordered x x'
  | None, None => True
  | _, _ => False
  end.
Proof.
  assert (Nth : forall i l l', reordered_all l l' -> match nth_error l i, nth_error l' i with
    | Some x, Some x' => reordered x x' | None, None => True | _, _ => False end).
  { induction i as [|i IH]; intros l l' [|x x' r r' Hx Hr]; cbn [nth_error]; try exact Logic.I; [exact Hx|now apply IH]. }
  induction path as [|i p IH]; intros top top' R; [exact Logic.I|]. cbn [xml_at]. specialize (Nth i top top' R).
  destruct p as [|j p]; [exact Nth|]. destruct (nth_error top i) as [x|], (nth_error top' i) as [x'|]; try contradiction; [|exact Logic.I].
  destruct Nth as [ns local attrs attrs' kids kids' _ _ K|s|s|]; try exact Logic.I. now apply IH.
Qed.
Section C.
  Context (top top' : list xml) (R : reordered_all top top').
  Lemma element_same path : xml_is_element top' path = xml_is_element top path.
  Proof.
    unfold xml_is_element. pose proof (at_related path top top' R) as A. destruct (xml_at top path) as [x|], (xml_at top' path) as [x'|]; try contradiction; [|reflexivity].
    now destruct A.
  Qed.
  Lemma prev_same path : prev_sibling_element top' path = prev_sibling_element top path.
  Proof. unfold prev_sibling_element. f_equal. apply filter_ext. exact element_same. Qed.
  Lemma sub_same path s : sub_matches top' path s = sub_matches top path s.
  Proof.
    destruct s as [name f|[|c]]; cbn [sub_matches pseudo_class_matches]; [|now rewrite prev_same|reflexivity].
    unfold attribute_matches. pose proof (at_related path top top' R) as A. destruct (xml_at top path) as [x|], (xml_at top' path) as [x'|]; try contradiction; [|reflexivity].
    destruct A as [ns local attrs attrs' kids kids' U Pm K|s|s|]; try reflexivity. now rewrite (plain_perm _ _ _ (proj1 U) Pm).
  Qed.
  Lemma component_same path c : component_matches top' path c = component_matches top path c.
  Proof.
    unfold component_matches. f_equal.
    - destruct (c_tag c) as [tag|]; [|reflexivity]. unfold has_local_name. pose proof (at_related path top top' R) as A.
      destruct (xml_at top path) as [x|], (xml_at top' path) as [x'|]; try contradiction; [|reflexivity]. now destruct A.
    - induction (c_subs c) as [|s l IH]; [reflexivity|]. cbn [forallb]. now rewrite sub_same, IH.
  Qed.
  Lemma left_same s : forall path, matches_left top' s path = matches_left top s path.
  Proof.
    induction s as [|c s IH]; intros path; [reflexivity|]. cbn [matches_left]. rewrite component_same. f_equal.
    destruct (c_combinator c); [reflexivity| | |].
    - induction (parent_elements _ _) as [|p l IHl]; [reflexivity|]. cbn [existsb]. now rewrite IH, IHl.
    - destruct (parent_element path); [apply IH|reflexivity].
    - rewrite prev_same. destruct (prev_sibling_element top path); [apply IH|reflexivity].
  Qed.
End C.
Theorem selectors_same P top top' : reordered_all top top' ->
  (forall r, In r (p_sheet P (sheet_texts top)) -> exists s ds, r = css_rule s ds) -> same_matches P top top'.
Proof.
  intros R H r Hr path. destruct (H r Hr) as (s & ds & ->). cbn [css_rule r_matches]. unfold selector_matches. now apply left_same.
Qed.
