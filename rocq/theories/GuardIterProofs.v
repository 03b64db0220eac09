From Coq Require Import List Bool PeanoNat Lia.
From Verif Require Import Base Links Tree Iter ForestSpec ListFacts TreeProofs ForestFacts IterSpec IterProofs
  Data Attrs Slab NodeApi Doc Loops Guards GuardDoc GuardIter GuardSpec GuardIterSpec.
Import ListNotations.

Notation hm g n := (mem n (g_mut g)).

Lemma hm_iff g n : hm g n = true <-> held_mut g n.
Proof. apply mem_In. Qed.
Lemma hm_false g n : hm g n = false <-> ~ held_mut g n.
Proof. rewrite <- hm_iff. destruct (hm g n); intuition congruence. Qed.

Lemma unless_if {A} (stop : Prop) (b : bool) (free guarded : res A) :
  (b = true <-> stop) -> guarded = (if b then Panic PBorrow else free) -> same_unless stop free guarded.
Proof.
  intros H ->. split.
  - intros q ->. destruct b; eauto.
  - intros r ->. split; intros Hs.
    + apply H in Hs. now rewrite Hs.
    + destruct b; [|reflexivity]. exfalso. apply Hs, H. reflexivity.
Qed.

(* ---- one call *)
Definition stops (g : guards) (root : nid) (e : edge) : bool :=
  match e with Start n => hm g n | End n => negb (Nat.eqb n root) && hm g n end.
Definition stops_back (g : guards) (root : nid) (e : edge) : bool :=
  match e with End n => hm g n | Start n => negb (Nat.eqb n root) && hm g n end.

Lemma g_next_item_eq g L root e :
  g_next_item g L root e = if stops g root e then Panic PBorrow else Ok (next_item L root e).
Proof.
  destruct e as [n|n]; cbn [g_next_item stops next_item]; unfold reading.
  - destruct (hm g n); [reflexivity|]. destruct (first_child L n); reflexivity.
  - destruct (Nat.eqb n root); [reflexivity|]. cbn [negb andb]. destruct (hm g n); [reflexivity|].
    destruct (next_sibling L n); [reflexivity|]. destruct (parent L n); reflexivity.
Qed.
Lemma g_previous_item_eq g L root e :
  g_previous_item g L root e = if stops_back g root e then Panic PBorrow else Ok (previous_item L root e).
Proof.
  destruct e as [n|n]; cbn [g_previous_item stops_back previous_item]; unfold reading.
  - destruct (Nat.eqb n root); [reflexivity|]. cbn [negb andb]. destruct (hm g n); [reflexivity|].
    destruct (previous_sibling L n); [reflexivity|]. destruct (parent L n); reflexivity.
  - destruct (hm g n); [reflexivity|]. destruct (last_child L n); reflexivity.
Qed.

Definition ostops (f : edge -> bool) (o : option edge) : bool := match o with Some e => f e | None => false end.

Lemma g_traverse_next_eq g L it :
  g_traverse_next g L it =
  if ostops (stops g (t_root it)) (t_back it) ||
     (negb (traverse_finished L it) && ostops (stops g (t_root it)) (t_next it))
  then Panic PBorrow else Ok (traverse_next L it).
Proof.
  unfold g_traverse_next, g_traverse_finished, traverse_next, traverse_finished.
  destruct (t_back it) as [b|]; [|reflexivity]. rewrite g_next_item_eq. cbn [ostops].
  destruct (stops g (t_root it) b); [reflexivity|]. cbn [bind orb].
  destruct (oedge_eqb (next_item L (t_root it) b) (t_next it)); [reflexivity|]. cbn [negb andb].
  destruct (t_next it) as [e|]; [|reflexivity]. rewrite g_next_item_eq. cbn [ostops].
  destruct (stops g (t_root it) e); reflexivity.
Qed.
Lemma g_traverse_next_back_eq g L it :
  g_traverse_next_back g L it =
  if ostops (stops g (t_root it)) (t_back it) ||
     (negb (traverse_finished L it) && ostops (stops_back g (t_root it)) (t_back it))
  then Panic PBorrow else Ok (traverse_next_back L it).
Proof.
  unfold g_traverse_next_back, g_traverse_finished, traverse_next_back, traverse_finished.
  destruct (t_back it) as [b|]; [|reflexivity]. rewrite g_next_item_eq. cbn [ostops].
  destruct (stops g (t_root it) b); [reflexivity|]. cbn [bind orb].
  destruct (oedge_eqb (next_item L (t_root it) b) (t_next it)); [reflexivity|]. cbn [negb andb].
  rewrite g_previous_item_eq. destruct (stops_back g (t_root it) b); reflexivity.
Qed.

Definition onode (g : guards) (o : option nid) : bool := match o with Some n => hm g n | None => false end.
Lemma g_children_next_eq g L it :
  g_children_next g L it =
  if onode g (c_back it) || (negb (children_finished L it) && onode g (c_next it))
  then Panic PBorrow else Ok (children_next L it).
Proof.
  unfold g_children_next, g_children_finished, children_next, children_finished, reading.
  destruct (c_back it) as [b|]; [|reflexivity]. cbn [onode].
  destruct (hm g b); [reflexivity|]. cbn [bind orb].
  destruct (onid_eqb (next_sibling L b) (c_next it)); [reflexivity|]. cbn [negb andb].
  destruct (c_next it) as [e|]; [|reflexivity]. cbn [onode]. destruct (hm g e); reflexivity.
Qed.
Lemma g_children_next_back_eq g L it :
  g_children_next_back g L it =
  if onode g (c_back it) then Panic PBorrow else Ok (children_next_back L it).
Proof.
  unfold g_children_next_back, g_children_finished, children_next_back, children_finished, reading.
  destruct (c_back it) as [b|]; [|reflexivity]. cbn [onode].
  destruct (hm g b); [reflexivity|]. cbn [bind].
  destruct (onid_eqb (next_sibling L b) (c_next it)); reflexivity.
Qed.

(* ---- ancestors(), preceding_siblings(), following_siblings() *)
Theorem simple_next_guards g step s :
  fst (simple_next step s) = s /\
  same_unless (exists n, s = Some n /\ held_mut g n) (Ok (simple_next step s)) (g_simple_next g step s).
Proof.
  split; [destruct s; reflexivity|]. apply (unless_if _ (onode g s)).
  - destruct s as [n|]; cbn [onode].
    + rewrite hm_iff. split; [intros H; now exists n|]. intros (m & [= <-] & H). exact H.
    + split; [discriminate|]. intros (m & [=] & _).
  - destruct s as [n|]; reflexivity.
Qed.

Lemma simple_collect_eq g step fuel : forall s l, simple_collect fuel step s = Ok l ->
  g_simple_collect fuel g step s = if existsb (fun n => hm g n) l then Panic PBorrow else Ok l.
Proof.
  induction fuel as [|f IH]; intros s l; cbn [simple_collect g_simple_collect]; [discriminate|].
  destruct s as [n|]; cbn [simple_next g_simple_next].
  - destruct (simple_collect f step (step n)) as [l'| |] eqn:E; cbn [bind]; try discriminate.
    intros [= <-]. unfold reading. cbn [existsb]. destruct (hm g n); [reflexivity|]. cbn [bind orb].
    rewrite (IH _ _ E). destruct (existsb _ l'); reflexivity.
  - intros [= <-]. reflexivity.
Qed.
Lemma existsb_held g l : existsb (fun n => hm g n) l = true <-> some_held g l.
Proof.
  rewrite existsb_exists. split; intros (x & Hx & H); exists x; (split; [exact Hx|]); now apply hm_iff.
Qed.
Theorem simple_collect_guards g step fuel s l : simple_collect fuel step s = Ok l ->
  same_unless (some_held g l) (Ok l) (g_simple_collect fuel g step s).
Proof.
  intros E. apply (unless_if _ (existsb (fun n => hm g n) l)); [apply existsb_held|].
  now apply simple_collect_eq.
Qed.

(* ---- children() *)
Lemma children_walk_at L F p front rest back it : Rep L F ->
  children_walk L p (children_of F p) front rest back it ->
  children_of F p = front ++ rest ++ back /\
  it = mkChildren (hd_error (rest ++ back)) (hd_error (rev (front ++ rest))).
Proof.
  intros R H. pose proof (children_good L F p R) as Hg.
  assert (Hfin : forall f r b, children_of F p = f ++ r ++ b ->
    children_finished L (mkChildren (hd_error (r ++ b)) (hd_error (rev (f ++ r)))) =
    match r with [] => true | _ => false end).
  { intros f r b E. etransitivity; [|exact (g_fin_spec Nat.eqb Nat.eqb_eq _ _ _ f r b Hg E)].
    unfold children_finished, g_fin. cbn [c_back c_next]. change (oeqb Nat.eqb) with onid_eqb. reflexivity. }
  induction H as [|front x rest back it it' H IH E|front rest x back it it' H IH E].
  - cbn [app]. rewrite app_nil_r. split; [reflexivity|]. unfold children.
    unfold first_child, last_child. rewrite (r_first L F R), (r_last L F R). reflexivity.
  - destruct IH as (El & ->). unfold children_next in E. rewrite (Hfin _ _ _ El) in E.
    cbn [c_next c_back app hd_error] in E. injection E as <-.
    split; [now rewrite <- app_assoc|].
    destruct (good_split _ _ _ front x (rest ++ back) Hg El) as [-> _]. now rewrite <- app_assoc.
  - destruct IH as (El & ->). unfold children_next_back in E. rewrite (Hfin _ _ _ El) in E.
    destruct (rest ++ [x]) as [|y m] eqn:Em; [now destruct rest|].
    rewrite <- Em in *. rewrite app_assoc, rev_unit in E. cbn [c_next c_back hd_error] in E.
    injection E as <-. rewrite <- app_assoc in El. cbn [app] in El.
    split; [exact El|]. rewrite <- app_assoc. cbn [app]. rewrite app_assoc in El.
    destruct (good_split _ _ _ (front ++ rest) x back Hg El) as [_ ->]. reflexivity.
Qed.

Lemma children_fin L F p f r b : Rep L F -> children_of F p = f ++ r ++ b ->
  children_finished L (mkChildren (hd_error (r ++ b)) (hd_error (rev (f ++ r)))) =
  match r with [] => true | _ => false end.
Proof.
  intros R E. etransitivity.
  2: exact (g_fin_spec Nat.eqb Nat.eqb_eq _ _ _ f r b (children_good L F p R) E).
  unfold children_finished, g_fin. cbn [c_back c_next]. change (oeqb Nat.eqb) with onid_eqb. reflexivity.
Qed.

Lemma final_app {A} (l1 l2 : list A) : l2 <> [] -> hd_error (rev (l1 ++ l2)) = final l2.
Proof.
  intros H. unfold final. rewrite rev_app_distr. destruct (rev l2) as [|x r] eqn:E; [|reflexivity].
  exfalso. apply H. rewrite <- (rev_involutive l2), E. reflexivity.
Qed.

Lemma onode_iff g o : onode g o = true <-> exists c, o = Some c /\ held_mut g c.
Proof.
  destruct o as [n|]; cbn [onode].
  - rewrite hm_iff. split; [intros H; now exists n|]. intros (m & [= <-] & H). exact H.
  - split; [discriminate|]. intros (m & [=] & _).
Qed.

Theorem children_next_guards L F p front rest back it g : Rep L F ->
  children_walk L p (children_of F p) front rest back it ->
  fst (children_next L it) = hd_error rest /\
  same_unless (children_stuck g front rest) (Ok (children_next L it)) (g_children_next g L it).
Proof.
  intros R H. apply (children_walk_at L F p front rest back it R) in H. destruct H as (El & ->).
  pose proof (children_fin L F p front rest back R El) as Hf. split.
  - unfold children_next. rewrite Hf. destruct rest; reflexivity.
  - eapply unless_if; [|apply g_children_next_eq]. rewrite Hf. cbn [c_next c_back].
    rewrite orb_true_iff, andb_true_iff, !onode_iff. unfold children_stuck. destruct rest as [|x r].
    + rewrite app_nil_r. cbn [negb]. split.
      * intros [(c & E & Hc)|([=] & _)]. exists c. split; [exact Hc|exact E].
      * intros (c & Hc & E). left. exists c. split; [exact E|exact Hc].
    + rewrite final_app by discriminate. cbn [negb app hd_error]. split.
      * intros [(c & E & Hc)|(_ & c & [= ->] & Hc)]; exists c; (split; [exact Hc|]); [right; exact E|left; reflexivity].
      * intros (c & Hc & [-> | E]); [right; split; [reflexivity|]; now exists x|left; now exists c].
Qed.
Theorem children_next_back_guards L F p front rest back it g : Rep L F ->
  children_walk L p (children_of F p) front rest back it ->
  fst (children_next_back L it) = final rest /\
  same_unless (children_back_stuck g front rest) (Ok (children_next_back L it)) (g_children_next_back g L it).
Proof.
  intros R H. apply (children_walk_at L F p front rest back it R) in H. destruct H as (El & ->).
  pose proof (children_fin L F p front rest back R El) as Hf. split.
  - unfold children_next_back. rewrite Hf. destruct rest as [|x r]; [reflexivity|].
    rewrite final_app by discriminate. cbn [c_back]. destruct (final (x :: r)); reflexivity.
  - eapply unless_if; [|apply g_children_next_back_eq]. cbn [c_back].
    rewrite onode_iff. unfold children_back_stuck. destruct rest as [|x r].
    + rewrite app_nil_r. split; intros (c & H1 & H2); exists c; (split; [exact H2|exact H1]).
    + rewrite final_app by discriminate. split; intros (c & H1 & H2); exists c; (split; [exact H2|exact H1]).
Qed.

Lemma children_collect_eq g L b fuel : forall it l, children_list fuel L it = Ok l -> c_back it = b ->
  g_children_collect fuel g L it =
  if onode g b || existsb (fun n => hm g n) l then Panic PBorrow else Ok l.
Proof.
  induction fuel as [|f IH]; intros it l; cbn [children_list g_children_collect]; [discriminate|].
  rewrite g_children_next_eq. intros E Hb. rewrite Hb. unfold children_next in E |- *.
  destruct (children_finished L it).
  - injection E as <-. cbn [negb andb existsb]. rewrite !orb_false_r. destruct (onode g b); reflexivity.
  - cbn [negb andb]. destruct (c_next it) as [n|].
    + destruct (children_list f L _) as [l'| |] eqn:El; cbn [bind] in E; try discriminate.
      injection E as <-. cbn [existsb onode]. destruct (onode g b); [reflexivity|]. cbn [orb].
      destruct (hm g n); [reflexivity|]. cbn [bind orb]. rewrite (IH _ _ El Hb). cbn [orb].
      destruct (existsb _ l'); reflexivity.
    + injection E as <-. cbn [existsb onode]. rewrite !orb_false_r. destruct (onode g b); reflexivity.
Qed.

Theorem children_list_guards L F p fuel g : Rep L F -> length (children_of F p) < fuel ->
  same_unless (some_held g (p :: children_of F p)) (Ok (children_of F p)) (g_children_list fuel g L p).
Proof.
  intros R Hf. apply (unless_if _ (hm g p || existsb (fun n => hm g n) (children_of F p))).
  - exact (existsb_held g (p :: children_of F p)).
  - unfold g_children_list, g_children, reading. destruct (hm g p); [reflexivity|]. cbn [bind orb].
    rewrite (children_collect_eq g L (last_child L p) fuel _ _ (children_list_eq L F p fuel R Hf) eq_refl).
    assert (E : onode g (last_child L p) = true -> existsb (fun n => hm g n) (children_of F p) = true).
    { intros H. apply onode_iff in H. destruct H as (c & E & Hc). apply existsb_held. exists c. split; [|exact Hc].
      unfold last_child in E. rewrite (r_last L F R) in E. now apply last_error_In. }
    destruct (onode g (last_child L p)); [|reflexivity]. now rewrite E.
Qed.

(* ---- traverse() *)
Lemma traverse_fin L F t f r b : Rep L F -> tree_at F t -> edges t = f ++ r ++ b ->
  traverse_finished L (mkTraverse (t_node t) (hd_error (r ++ b)) (hd_error (rev (f ++ r)))) =
  match r with [] => true | _ => false end.
Proof.
  intros R Hat E. etransitivity.
  2: exact (g_fin_spec edge_eqb edge_eqb_eq _ _ _ f r b (traverse_good L F t R Hat) E).
  unfold traverse_finished, g_fin. cbn [t_back t_next t_root].
  change (oeqb edge_eqb) with oedge_eqb. reflexivity.
Qed.

Lemma traverse_walk_at L F t front rest back it : Rep L F -> tree_at F t ->
  traverse_walk L (t_node t) (edges t) front rest back it ->
  edges t = front ++ rest ++ back /\
  it = mkTraverse (t_node t) (hd_error (rest ++ back)) (hd_error (rev (front ++ rest))).
Proof.
  intros R Hat H. pose proof (traverse_good L F t R Hat) as Hg.
  induction H as [|front x rest back it it' H IH E|front rest x back it it' H IH E].
  - cbn [app]. rewrite app_nil_r. split; [reflexivity|]. unfold traverse.
    now rewrite edges_hd, edges_last.
  - destruct IH as (El & ->). unfold traverse_next in E. rewrite (traverse_fin L F t _ _ _ R Hat El) in E.
    cbn [t_next t_back t_root app hd_error] in E. injection E as <-.
    split; [now rewrite <- app_assoc|].
    destruct (good_split _ _ _ front x (rest ++ back) Hg El) as [-> _]. now rewrite <- app_assoc.
  - destruct IH as (El & ->). unfold traverse_next_back in E. rewrite (traverse_fin L F t _ _ _ R Hat El) in E.
    destruct (rest ++ [x]) as [|y m] eqn:Em; [now destruct rest|].
    rewrite <- Em in *. rewrite app_assoc, rev_unit in E. cbn [t_next t_back t_root hd_error] in E.
    injection E as <-. rewrite <- app_assoc in El. cbn [app] in El.
    split; [exact El|]. rewrite <- app_assoc. cbn [app]. rewrite app_assoc in El.
    destruct (good_split _ _ _ (front ++ rest) x back Hg El) as [_ ->]. reflexivity.
Qed.

Lemma stops_iff g root e : stops g root e = true <-> held_mut g (edge_node e) /\ e <> End root.
Proof.
  destruct e as [n|n]; cbn [stops edge_node].
  - rewrite hm_iff. split; [intros H; split; [exact H|discriminate]|tauto].
  - rewrite andb_true_iff, hm_iff, negb_true_iff, Nat.eqb_neq. split.
    + intros (H1 & H2). split; [exact H2|]. intros [= ->]. now apply H1.
    + intros (H1 & H2). split; [|exact H1]. intros ->. now apply H2.
Qed.
Lemma stops_either g root e : stops g root e || stops_back g root e = hm g (edge_node e).
Proof.
  destruct e as [n|n]; cbn [stops stops_back edge_node]; destruct (hm g n), (Nat.eqb n root); reflexivity.
Qed.
Lemma ostops_iff g root o : ostops (stops g root) o = true <->
  exists e, o = Some e /\ held_mut g (edge_node e) /\ e <> End root.
Proof.
  destruct o as [e|]; cbn [ostops].
  - rewrite stops_iff. split; [intros H; now exists e|]. intros (x & [= <-] & H). exact H.
  - split; [discriminate|]. intros (x & [=] & _).
Qed.

Theorem traverse_next_guards L F t front rest back it g : Rep L F -> tree_at F t ->
  traverse_walk L (t_node t) (edges t) front rest back it ->
  fst (traverse_next L it) = hd_error rest /\
  same_unless (traverse_stuck g (t_node t) front rest) (Ok (traverse_next L it)) (g_traverse_next g L it).
Proof.
  intros R Hat H. apply (traverse_walk_at L F t front rest back it R Hat) in H. destruct H as (El & ->).
  pose proof (traverse_fin L F t front rest back R Hat El) as Hf. split.
  - unfold traverse_next. rewrite Hf. destruct rest; reflexivity.
  - eapply unless_if; [|apply g_traverse_next_eq]. rewrite Hf. cbn [t_next t_back t_root].
    rewrite orb_true_iff, andb_true_iff, !ostops_iff. unfold traverse_stuck. destruct rest as [|x r].
    + rewrite app_nil_r. cbn [negb]. split.
      * intros [(c & E & Hc & Hn)|([=] & _)]. exists c. split; [exact Hc|]. split; [exact Hn|exact E].
      * intros (c & Hc & Hn & E). left. exists c. split; [exact E|]. split; [exact Hc|exact Hn].
    + rewrite final_app by discriminate. cbn [negb app hd_error]. split.
      * intros [(c & E & Hc & Hn)|(_ & c & [= ->] & Hc & Hn)]; exists c;
          (split; [exact Hc|]; split; [exact Hn|]); [right; exact E|left; reflexivity].
      * intros (c & Hc & Hn & [-> | E]); [right; split; [reflexivity|]; now exists x|left; now exists c].
Qed.
Theorem traverse_next_back_guards L F t front rest back it g : Rep L F -> tree_at F t ->
  traverse_walk L (t_node t) (edges t) front rest back it ->
  fst (traverse_next_back L it) = final rest /\
  same_unless (traverse_back_stuck g (t_node t) front rest) (Ok (traverse_next_back L it))
    (g_traverse_next_back g L it).
Proof.
  intros R Hat H. apply (traverse_walk_at L F t front rest back it R Hat) in H. destruct H as (El & ->).
  pose proof (traverse_fin L F t front rest back R Hat El) as Hf. split.
  - unfold traverse_next_back. rewrite Hf. destruct rest as [|x r]; [reflexivity|].
    rewrite final_app by discriminate. cbn [t_back]. destruct (final (x :: r)); reflexivity.
  - eapply unless_if; [|apply g_traverse_next_back_eq]. rewrite Hf. cbn [t_next t_back t_root].
    unfold traverse_back_stuck. destruct rest as [|x r].
    + cbn [negb andb]. rewrite app_nil_r, orb_false_r, ostops_iff. split.
      * intros (c & E & Hc & Hn). exists c. split; [exact Hc|]. split; [exact Hn|exact E].
      * intros (c & Hc & Hn & E). exists c. split; [exact E|]. split; [exact Hc|exact Hn].
    + rewrite final_app by discriminate. cbn [negb andb].
      destruct (final (x :: r)) as [e|]; cbn [ostops].
      * rewrite stops_either, hm_iff. split; [intros Hc; now exists e|]. intros (c & Hc & [= ->]). exact Hc.
      * split; [discriminate|]. intros (c & _ & [=]).
Qed.

Lemma traverse_collect_eq g L fuel : forall it l, traverse_collect fuel L it = Ok l ->
  t_back it = Some (End (t_root it)) ->
  g_traverse_collect fuel g L it = if existsb (stops g (t_root it)) l then Panic PBorrow else Ok l.
Proof.
  induction fuel as [|f IH]; intros it l; cbn [traverse_collect g_traverse_collect]; [discriminate|].
  rewrite g_traverse_next_eq. intros E Hb. rewrite Hb. cbn [ostops stops]. rewrite Nat.eqb_refl.
  cbn [negb andb orb]. unfold traverse_next in E |- *. destruct (traverse_finished L it).
  - injection E as <-. reflexivity.
  - cbn [negb andb]. destruct (t_next it) as [e|]; [|injection E as <-; reflexivity]. cbn [ostops].
    destruct (traverse_collect f L _) as [l'| |] eqn:El; cbn [bind] in E; try discriminate.
    injection E as <-. cbn [existsb]. destruct (stops g (t_root it) e); [reflexivity|]. cbn [bind orb].
    rewrite (IH _ _ El Hb). cbn [t_root]. destruct (existsb _ l'); reflexivity.
Qed.

Lemma edges_In t e : In e (edges t) -> In (edge_node e) (preorder t).
Proof.
  induction t as [n ts IH] using tree_ind'. cbn [edges preorder]. intros [<-|H]; [now left|].
  apply in_app_iff in H. destruct H as [H|[<-|[]]]; [|now left]. right. apply in_flat_map in H.
  destruct H as (t & Ht & H). apply in_flat_map. exists t. split; [exact Ht|].
  rewrite Forall_forall in IH. now apply IH.
Qed.
Lemma starts_In l n : In n (starts l) <-> In (Start n) l.
Proof.
  induction l as [|[x|x] l IH]; cbn [starts In]; [tauto| |].
  - rewrite IH. split; intros [H|H]; try (now right); left; congruence.
  - rewrite IH. split; [now right|]. intros [[=]|H]; exact H.
Qed.
Lemma stops_edges g t : existsb (stops g (t_node t)) (edges t) = true <-> some_held g (preorder t).
Proof.
  rewrite existsb_exists. split.
  - intros (e & He & H). apply stops_iff in H. exists (edge_node e). split; [now apply edges_In|apply H].
  - intros (n & Hn & H). exists (Start n). split; [apply starts_In; now rewrite starts_edges|].
    apply stops_iff. split; [exact H|discriminate].
Qed.

Theorem traverse_guards L F t fuel g : Rep L F -> tree_at F t -> length (edges t) < fuel ->
  same_unless (some_held g (preorder t)) (Ok (edges t)) (g_traverse_collect fuel g L (traverse (t_node t))).
Proof.
  intros R Hat Hf. apply (unless_if _ (existsb (stops g (t_node t)) (edges t))); [apply stops_edges|].
  exact (traverse_collect_eq g L fuel _ _ (traverse_collect_spec L F t fuel R Hat Hf) eq_refl).
Qed.
