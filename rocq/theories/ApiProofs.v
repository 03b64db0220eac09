(* Glue between the invariants and the property statements. *)
From Coq Require Import List Bool PeanoNat NArith Lia Wf_nat.
From Verif Require Import Base Ids Links Tree Iter ForestSpec TreeSpec ListFacts TreeProofs ForestFacts IterSpec IterProofs
  PruneFacts Data Attrs Slab SlabProofs NodeApi AttrSpec Doc AttrFacts LinkProofs History DocSpec RemoveProofs InvProofs
  HistoryProofs DrainProofs CopyProofs DropProofs TidyProofs TreeApi.
Import ListNotations.

(* ---- the forest of a document *)
Lemma forest_eq_shows L F F' : shows L F -> shows L F' -> forest_eq F F'.
Proof. intros S S'. destruct (shows_unique L F F' S S') as (A & B & C). split; [easy|]. split; easy. Qed.

Lemma reachable_shows D : reachable D -> exists F, shows (lk D) F.
Proof. intros H. destruct (reachable_inv D H) as (F & I & _). exists F. apply shows_Rep, I. Qed.

Lemma shows_inv D F : reachable D -> shows (lk D) F -> InvF D F.
Proof.
  intros H S. destruct (reachable_inv D H) as (F0 & I & _). apply (InvF_ext D F0 F); [|easy].
  apply (forest_eq_shows (lk D)); [|easy]. apply shows_Rep, I.
Qed.
Lemma shows_acyclic D F : reachable D -> acyclic_dom D -> shows (lk D) F -> acyclic F.
Proof. intros H A S. apply (acyclic_dom_iff D F); [|easy]. now apply shows_inv. Qed.

(* ---- cycles *)
Lemma above_keep L L' n p : (forall m, m <> n -> parent L' m = parent L m) -> above L n p -> above L' n p.
Proof.
  intros Hp H. revert Hp. induction H as [n|a m q Hq H IH]; intros Hp; [constructor|].
  destruct (Nat.eq_dec m a) as [->|Hm]; [constructor|]. apply (above_up L' a m q); [|auto]. now rewrite Hp.
Qed.

Lemma Inv_reach D : reachable D -> acyclic_dom D -> Inv True D.
Proof.
  intros H A. destruct (reachable_inv D H) as (F & I & _). exists F. split; [easy|]. intros _.
  now apply (acyclic_dom_iff D F).
Qed.
Lemma Inv_acyclic D : Inv True D -> acyclic_dom D.
Proof. intros (F & I & A). apply (acyclic_dom_iff D F I). now apply A. Qed.

Theorem cycle_exact o D D' : reachable D -> acyclic_dom D -> legal o D -> step o D = Ok D' ->
  (acyclic_dom D' <-> no_cycle_made o D).
Proof.
  intros H A Hl Hs. split.
  2:{ intros Hc. apply Inv_acyclic. now apply (step_inv True o D D'); [apply Inv_reach| | |]. }
  intros A'.
  assert (Hx : forall p n q L', D' = with_lk L' D -> p <> n ->
    (forall m, m <> n -> parent L' m = parent (lk D) m) -> parent L' n = q ->
    (q = Some p \/ q = parent (lk D) p) -> ~ above (lk D) n p).
  { intros p n q L' -> Hpn Hk Hq Hor Ha.
    assert (Ha' : above L' n p) by now apply (above_keep (lk D)).
    destruct Hor as [->|Hor].
    - now apply (A' n p).
    - inversion Ha'; subst; [easy|]. rewrite (Hk p Hpn) in H0. now apply (A' n p0); cbn; [congruence|]. }
  destruct (reachable_shows D H) as (F & S).
  destruct o; cbn [no_cycle_made]; try easy; cbn [step] in Hs; unfold on_links in Hs;
    ok_bind Hs L' E; injection Hs as <-.
  - destruct (append_effect p n _ _ F S E) as (F' & S' & Hp & _ & Hm).
    eapply (Hx p n (Some p) L'); [easy| | | |now left].
    + intros ->. unfold append in E. now rewrite Nat.eqb_refl in E.
    + intros m Hmn. rewrite (sh_parent _ _ S'), (sh_parent _ _ S). now apply Hm.
    + now rewrite (sh_parent _ _ S').
  - destruct (prepend_effect p n _ _ F S E) as (F' & S' & Hp & _ & Hm).
    eapply (Hx p n (Some p) L'); [easy| | | |now left].
    + intros ->. unfold prepend in E. now rewrite Nat.eqb_refl in E.
    + intros m Hmn. rewrite (sh_parent _ _ S'), (sh_parent _ _ S). now apply Hm.
    + now rewrite (sh_parent _ _ S').
  - destruct (insert_after_effect a n _ _ F S E) as (F' & S' & Hp & _ & Hm).
    eapply (Hx a n (parent (lk D) a) L'); [easy| | | |now right].
    + intros ->. unfold insert_after in E. now rewrite Nat.eqb_refl in E.
    + intros m Hmn. rewrite (sh_parent _ _ S'), (sh_parent _ _ S). now apply Hm.
    + rewrite (sh_parent _ _ S'), (sh_parent _ _ S). easy.
  - destruct (insert_before_effect a n _ _ F S E) as (F' & S' & Hp & _ & Hm).
    eapply (Hx a n (parent (lk D) a) L'); [easy| | | |now right].
    + intros ->. unfold insert_before in E. now rewrite Nat.eqb_refl in E.
    + intros m Hmn. rewrite (sh_parent _ _ S'), (sh_parent _ _ S). now apply Hm.
    + rewrite (sh_parent _ _ S'), (sh_parent _ _ S). easy.
Qed.

(* ---- panics of the tree calls *)
Section ReachPanics.
  Context (D : dom) (H : reachable D).

  Lemma on_links_total f same conflict : outcomes same conflict (f (lk D)) ->
    (same -> on_links f D = Panic PAssert) /\ (~ same -> conflict -> on_links f D = Panic PBorrow) /\
      (~ same -> ~ conflict -> exists D', on_links f D = Ok D').
  Proof.
    intros (H1 & H2 & H3). unfold on_links. split; [|split].
    - intros HP. now rewrite H1.
    - intros HP HQ. now rewrite H2.
    - intros HP HQ. destruct (H3 HP HQ) as (L' & ->). cbn. eauto.
  Qed.

  Lemma reach_append p n :
    let stuck := touches (lk D) n p \/ touches (lk D) n n \/ last_child (lk D) p = Some p in
    (p = n -> step (OAppend p n) D = Panic PAssert) /\
    (p <> n -> stuck -> step (OAppend p n) D = Panic PBorrow) /\
    (p <> n -> ~ stuck -> exists D', step (OAppend p n) D = Ok D').
  Proof. destruct (reachable_inv D H) as (F & I & _). apply on_links_total, (append_total (lk D) F), I. Qed.
  Lemma reach_prepend p n :
    let stuck := touches (lk D) n p \/ touches (lk D) n n \/ first_child (lk D) p = Some p in
    (p = n -> step (OPrepend p n) D = Panic PAssert) /\
    (p <> n -> stuck -> step (OPrepend p n) D = Panic PBorrow) /\
    (p <> n -> ~ stuck -> exists D', step (OPrepend p n) D = Ok D').
  Proof. destruct (reachable_inv D H) as (F & I & _). apply on_links_total, (prepend_total (lk D) F), I. Qed.
  Lemma reach_insert_after a n :
    let stuck := touches (lk D) n a \/ touches (lk D) n n \/
      next_sibling (lk D) a = None /\ (parent (lk D) a = Some n \/ parent (lk D) a = Some a) in
    (a = n -> step (OInsertAfter a n) D = Panic PAssert) /\
    (a <> n -> stuck -> step (OInsertAfter a n) D = Panic PBorrow) /\
    (a <> n -> ~ stuck -> exists D', step (OInsertAfter a n) D = Ok D').
  Proof. destruct (reachable_inv D H) as (F & I & _). apply on_links_total, (insert_after_total (lk D) F), I. Qed.
  Lemma reach_insert_before a n :
    let stuck := touches (lk D) n a \/ touches (lk D) n n \/
      previous_sibling (lk D) a = None /\ parent (lk D) a = Some a in
    (a = n -> step (OInsertBefore a n) D = Panic PAssert) /\
    (a <> n -> stuck -> step (OInsertBefore a n) D = Panic PBorrow) /\
    (a <> n -> ~ stuck -> exists D', step (OInsertBefore a n) D = Ok D').
  Proof. destruct (reachable_inv D H) as (F & I & _). apply on_links_total, (insert_before_total (lk D) F), I. Qed.
  Lemma reach_detach n :
    (touches (lk D) n n -> step (ODetach n) D = Panic PBorrow) /\
    (~ touches (lk D) n n -> exists D', step (ODetach n) D = Ok D').
  Proof.
    destruct (reachable_inv D H) as (F & I & _). cbn [step]. unfold on_links.
    destruct (detach_total (lk D) F (iv_rep D F I) n) as (H1 & H2). split.
    - intros T. now rewrite H1.
    - intros T. destruct (H2 T) as (L' & ->). cbn. eauto.
  Qed.
  Lemma reach_no_self : acyclic_dom D -> forall n, parent (lk D) n <> Some n /\ ~ touches (lk D) n n /\
    last_child (lk D) n <> Some n /\ first_child (lk D) n <> Some n.
  Proof.
    intros A. destruct (reachable_inv D H) as (F & I & _). apply (acyclic_no_self (lk D) F); [apply I|].
    now apply (acyclic_dom_iff D F I).
  Qed.
End ReachPanics.

(* ---- iterators over a reachable document *)
Lemma chain_exists F n : acyclic F -> exists l, ancestor_chain F n l.
Proof.
  intros (rank & b & _ & Hr). remember (rank n) as k eqn:Ek. revert n Ek.
  induction k as [k IH] using lt_wf_ind. intros n ->. destruct (parent_of F n) as [p|] eqn:E.
  - destruct (IH (rank p) (Hr n p E) p eq_refl) as (l & Hl). exists (n :: l). econstructor; eauto.
  - exists [n]. now constructor.
Qed.

Lemma chain_in F n l x : ancestor_chain F n l -> In x l -> anc_or_self F x n.
Proof.
  induction 1 as [n Hn|n p l Hp Hl IH]; intros Hx.
  - destruct Hx as [<-|[]]. constructor.
  - destruct Hx as [<-|Hx]; [constructor|]. eapply aos_up; eauto.
Qed.
Lemma chain_nodup F n l : acyclic F -> ancestor_chain F n l -> NoDup l.
Proof.
  intros A. induction 1 as [n Hn|n p l Hp Hl IH]; [repeat constructor; easy|]. constructor; [|easy].
  intros Hin. apply (chain_in F p l n Hl) in Hin. eapply acyclic_no_loop; eauto.
Qed.

Lemma reach_ancestors D F n : reachable D -> acyclic_dom D -> exists_node D n -> shows (lk D) F ->
  exists l, ancestor_chain F n l /\ ancestors (enough D) (lk D) n = Ok l.
Proof.
  intros H A Hn S. pose proof (shows_inv D F H S) as I. pose proof (shows_acyclic D F H A S) as HA.
  destruct (chain_exists F n HA) as (l & Hl). exists l. split; [easy|].
  apply (ancestors_spec (lk D) F n l); [apply I|easy|]. unfold enough.
  assert (length l <= fresh D); [|lia]. apply nodup_bound; [now apply (chain_nodup F n)|].
  intros x Hx. apply (anc_lt D F x n I); [now apply (chain_in F n l)|easy].
Qed.

Lemma siblings_lt D F n x : InvF D F -> n < fresh D -> In x (siblings_of F n) -> x < fresh D.
Proof.
  intros I Hn Hx. destruct (Nat.lt_ge_cases x (fresh D)) as [|Hge]; [easy|].
  destruct (iv_iso D F I x Hge) as (_ & E & _). pose proof (r_wf _ _ (iv_rep D F I)) as W.
  destruct (wf_share F W n x Hx) as (E2 & _). pose proof (wf_self F W n) as Hs. rewrite <- E2, E in Hs.
  destruct Hs as [->|[]]. lia.
Qed.
Lemma siblings_bound D F n : InvF D F -> n < fresh D -> length (siblings_of F n) <= fresh D.
Proof.
  intros I Hn. apply nodup_bound; [apply (wf_nodup F), I|]. intros x. now apply (siblings_lt D F n).
Qed.

Lemma reach_siblings D F n l1 l2 : reachable D -> exists_node D n -> shows (lk D) F ->
  siblings_of F n = l1 ++ n :: l2 ->
  following_siblings (enough D) (lk D) n = Ok (n :: l2) /\
  preceding_siblings (enough D) (lk D) n = Ok (n :: rev l1).
Proof.
  intros H Hn S E. pose proof (shows_inv D F H S) as I. pose proof (siblings_bound D F n I Hn) as Hb.
  rewrite E, app_length in Hb. cbn in Hb. split.
  - apply (following_siblings_spec (lk D) F n l1 l2); [apply I|easy|]. unfold enough. cbn. lia.
  - apply (preceding_siblings_spec (lk D) F n l1 l2); [apply I|easy|]. unfold enough. cbn. lia.
Qed.

Lemma reach_traverse D F t : reachable D -> exists_node D (t_node t) -> shows (lk D) F ->
  tree_at F t ->
  (forall calls, traverse_run (lk D) (traverse (t_node t)) calls = deque_run (edges t) calls) /\
  descendants (2 * enough D) (lk D) (t_node t) = Ok (preorder t).
Proof.
  intros H Hn S Ht. pose proof (shows_inv D F H S) as I. split.
  - intros calls. apply (traverse_run_spec (lk D) F); [apply I|easy].
  - apply (descendants_spec (lk D) F); [apply I|easy|].
    pose proof (tree_size D F t I Ht Hn). unfold enough. lia.
Qed.

(* ---- attributes *)
Lemma frame_same D D' : frame D D' -> same_nodes D D'.
Proof. intros []; now split. Qed.
Lemma stored_shape a : stored a = mkAttr (a_name a) (shape (a_name a) (a_value a)).
Proof.
  destruct a as [nm v]. unfold stored, shape, link_attr, name_has_id. cbn [a_name a_value].
  destruct v; cbn [link_target fallback_of]; try easy; destruct nm as [i|s]; try easy; now destruct i.
Qed.
Lemma refused_error D self a : LInv D -> refused D self a = link_error D self a.
Proof.
  intros I. unfold refused, link_error. destruct (link_target (a_value a)) as [t|]; [|easy].
  unfold has_id. destruct (id_of D t) as [|c s] eqn:Ei; [easy|].
  change (str_eqb (c :: s) []) with false. cbn [negb].
  destruct (str_eqb (id_of D self) (c :: s)); [easy|]. cbn [orb].
  replace (Nat.ltb 0 (uses D t self)) with (mem t (linked_nodes D self)); [easy|].
  pose proof (li_sym D I t self) as E. change (count_links self (attributes D t)) with (uses D t self) in E.
  rewrite <- E. destruct (mem t (linked_nodes D self)) eqn:Em.
  - symmetry. apply Nat.ltb_lt. apply mem_In in Em. now apply count_occ_In.
  - symmetry. apply Nat.ltb_ge. apply mem_not_In in Em. apply (count_occ_not_In Nat.eq_dec) in Em.
    unfold nid, cnt in *. rewrite Em. apply le_n.
Qed.

Lemma reach_linv D : reachable D -> LInv D.
Proof. intros H. destruct (reachable_inv D H) as (F & I & _). apply I. Qed.

Lemma checked_cases D n a : reachable D -> is_element D n = true ->
  match refused D n a with
  | Some e => set_attribute_checked n a D = Ok (D, RErr e)
  | None => exists D', set_attribute_checked n a D = Ok (D', ROk) /\ same_nodes D D' /\
      attributes D' n = others (a_name a) (attributes D n) ++ [mkAttr (a_name a) (shape (a_name a) (a_value a))] /\
      (forall m, m <> n -> attributes D' m = attributes D m)
  end.
Proof.
  intros H He. pose proof (reach_linv D H) as I. rewrite (refused_error D n a I).
  pose proof (set_attribute_checked_spec n a D I He) as Hs. destruct (link_error D n a); [easy|].
  destruct Hs as (D' & E & Hf & Ha & _). exists D'. split; [easy|]. split; [now apply frame_same|]. split.
  - rewrite Ha, Nat.eqb_refl, stored_shape. reflexivity.
  - intros m Hm. rewrite Ha. destruct (Nat.eqb_spec m n); easy.
Qed.

Lemma set_cases D n a : reachable D -> is_element D n = true ->
  match refused D n a with
  | Some e => set_attribute n a D = Panic PUnwrap
  | None => exists D', set_attribute n a D = Ok D' /\ same_nodes D D' /\
      attributes D' n = others (a_name a) (attributes D n) ++ [mkAttr (a_name a) (shape (a_name a) (a_value a))] /\
      (forall m, m <> n -> attributes D' m = attributes D m)
  end.
Proof.
  intros H He. pose proof (checked_cases D n a H He) as Hc. unfold set_attribute. destruct (refused D n a).
  - now rewrite Hc.
  - destruct Hc as (D' & -> & Hc). cbn. now exists D'.
Qed.

Lemma remove_cases D n name : reachable D ->
  exists D', remove_attribute n name D = Ok D' /\ same_nodes D D' /\
    attributes D' n = others name (attributes D n) /\ (forall m, m <> n -> attributes D' m = attributes D m).
Proof.
  intros H. destruct (remove_attribute_spec n name D (reach_linv D H)) as (D' & E & Hf & Ha & _).
  exists D'. split; [easy|]. split; [now apply frame_same|]. split.
  - now rewrite Ha, Nat.eqb_refl.
  - intros m Hm. rewrite Ha. destruct (Nat.eqb_spec m n); easy.
Qed.

Lemma get_cases D n name : reachable D ->
  (has_attribute D n name = true <-> In name (map a_name (attributes D n))) /\
  (forall v, attrs_get_value (attributes D n) name = Some v <-> In (mkAttr name v) (attributes D n)) /\
  (attrs_get_value (attributes D n) name = option_map a_value (attrs_get (attributes D n) name)).
Proof.
  intros H. split; [apply contains_iff|]. split; [|apply get_value_get].
  apply get_value_spec, (li_uniq D (reach_linv D H)).
Qed.

(* ---- removal *)
Lemma prune_at F t : wf_forest F -> tree_at F t -> forall x, ~ In x (preorder t) ->
  parent_of (f_prune (preorder t) F) x = parent_of F x /\
  children_of (f_prune (preorder t) F) x = rm (t_node t) (children_of F x) /\
  siblings_of (f_prune (preorder t) F) x = rm (t_node t) (siblings_of F x).
Proof.
  intros W Ht x Hx. cbn [f_prune parent_of children_of siblings_of].
  apply mem_not_In in Hx as Hx'. rewrite Hx'. split; [easy|].
  assert (Hw : forall l, (forall m, In m l -> In m (preorder t) -> m = t_node t) ->
    without (preorder t) l = rm (t_node t) l).
  { intros l Hl. unfold without, rm. apply filter_ext_in. intros m Hm. f_equal.
    destruct (Nat.eqb_spec m (t_node t)) as [->|Hne]; [apply mem_In, preorder_self|].
    apply mem_not_In. intros Hin. now apply Hl in Hin. }
  assert (Hup : forall m q, In m (preorder t) -> m <> t_node t -> parent_of F m = Some q -> In q (preorder t)).
  { intros m q Hm Hne Hq. apply (preorder_iff F t m W Ht) in Hm. apply (preorder_iff F t q W Ht).
    inversion Hm; subst; [easy|]. congruence. }
  split; apply Hw; intros m Hm Hin; destruct (Nat.eq_dec m (t_node t)) as [|Hne]; try easy; exfalso.
  - apply (wf_child F W) in Hm. apply Hx. now apply (Hup m x).
  - destruct (wf_share F W x m Hm) as (_ & Ep). destruct (parent_of F m) as [q|] eqn:Eq.
    + pose proof (Hup m q Hin Hne Eq) as Hq. apply Hx. apply (preorder_iff F t x W Ht).
      eapply aos_up; [symmetry; exact Ep|]. now apply (preorder_iff F t q W Ht).
    + apply (preorder_iff F t m W Ht) in Hin. inversion Hin; subst; congruence.
Qed.
Lemma prune_in F S x : In x S -> parent_of (f_prune S F) x = None /\ children_of (f_prune S F) x = [] /\
  siblings_of (f_prune S F) x = [x].
Proof. intros H. cbn. apply mem_In in H. now rewrite H. Qed.

Lemma reach_remove D F t : reachable D -> shows (lk D) F -> tree_at F t -> exists_node D (t_node t) ->
  exists D', remove_node (t_node t) D = Ok D' /\ shows (lk D') (f_prune (preorder t) F) /\ removed (preorder t) D D' /\
    InvF D' (f_prune (preorder t) F) /\ LInv D'.
Proof.
  intros H S Ht Hn. pose proof (shows_inv D F H S) as I.
  destruct (remove_node_spec D F t I Ht Hn) as (D' & E & I' & R). exists D'.
  split; [easy|]. split; [apply shows_Rep, I'|]. split; [easy|]. split; [easy|apply I'].
Qed.


(* ---- calls on the whole document *)
Lemma call_effect D D' f (P : forest -> forest -> Prop) :
  (forall L' F, shows (lk D) F -> f (lk D) = Ok L' -> exists F', shows L' F' /\ P F F') ->
  on_links f D = Ok D' ->
  dt D' = dt D /\ store D' = store D /\ forall F, shows (lk D) F -> exists F', shows (lk D') F' /\ P F F'.
Proof.
  intros Hf H. unfold on_links in H. ok_bind H L' E. injection H as <-. split; [easy|]. split; [easy|].
  intros F S. now apply Hf.
Qed.
Lemma append_call D p n D' : step (OAppend p n) D = Ok D' ->
  dt D' = dt D /\ store D' = store D /\ forall F, shows (lk D) F -> exists F', shows (lk D') F' /\ appended p n F F'.
Proof. apply (call_effect D D' (append [] p n)). intros. eapply append_effect; eauto. Qed.
Lemma prepend_call D p n D' : step (OPrepend p n) D = Ok D' ->
  dt D' = dt D /\ store D' = store D /\ forall F, shows (lk D) F -> exists F', shows (lk D') F' /\ prepended p n F F'.
Proof. apply (call_effect D D' (prepend [] p n)). intros. eapply prepend_effect; eauto. Qed.
Lemma insert_after_call D p n D' : step (OInsertAfter p n) D = Ok D' ->
  dt D' = dt D /\ store D' = store D /\ forall F, shows (lk D) F -> exists F', shows (lk D') F' /\ inserted_after p n F F'.
Proof. apply (call_effect D D' (insert_after [] p n)). intros. eapply insert_after_effect; eauto. Qed.
Lemma insert_before_call D p n D' : step (OInsertBefore p n) D = Ok D' ->
  dt D' = dt D /\ store D' = store D /\ forall F, shows (lk D) F -> exists F', shows (lk D') F' /\ inserted_before p n F F'.
Proof. apply (call_effect D D' (insert_before [] p n)). intros. eapply insert_before_effect; eauto. Qed.
Lemma detach_call D n D' : step (ODetach n) D = Ok D' ->
  dt D' = dt D /\ store D' = store D /\ forall F, shows (lk D) F -> exists F', shows (lk D') F' /\ detached n F F'.
Proof. apply (call_effect D D' (detach [] n)). intros. eapply detach_effect; eauto. Qed.

Lemma C01_lemma D : reachable D ->
  exists F, shows (lk D) F /\ forall F', shows (lk D) F' ->
    (forall n, parent_of F' n = parent_of F n) /\ (forall n, children_of F' n = children_of F n) /\
    (forall n, siblings_of F' n = siblings_of F n).
Proof.
  intros H. destruct (reachable_shows D H) as (F & S). exists F. split; [easy|].
  intros F' S'. exact (shows_unique _ _ _ S' S).
Qed.
Lemma C08_lemma D F p calls : reachable D -> shows (lk D) F ->
  children_run (lk D) (children (lk D) p) calls = deque_run (children_of F p) calls.
Proof. intros H S. apply children_run_spec. now apply shows_Rep. Qed.

(* ---- links and their mirror *)
Lemma count_sum (l : list nat) : forall n, (forall x, In x l -> x < n) ->
  length l = list_sum (map (count_occ Nat.eq_dec l) (seq 0 n)).
Proof.
  assert (Z : forall s : list nat, list_sum (map (fun _ => 0) s) = 0) by (induction s; easy).
  assert (O : forall x (t : list nat) n s, list_sum (map (count_occ Nat.eq_dec (x :: t)) (seq s n)) =
     list_sum (map (count_occ Nat.eq_dec t) (seq s n)) + (if (s <=? x) && (x <? s + n) then 1 else 0)).
  { intros x t. induction n as [|n IH]; intros s.
    - destruct (Nat.leb_spec s x), (Nat.ltb_spec x (s + 0)); cbn; lia.
    - cbn [seq map list_sum fold_right]. unfold list_sum in IH. rewrite IH. cbn [count_occ].
      destruct (Nat.eq_dec x s) as [->|Hne];
      repeat match goal with
             | |- context [Nat.leb ?a ?b] => destruct (Nat.leb_spec a b)
             | |- context [Nat.ltb ?a ?b] => destruct (Nat.ltb_spec a b)
             end; cbn [andb]; lia. }
  induction l as [|x l IH]; intros n H; [cbn; now rewrite Z|].
  rewrite O, <- (IH n); [|intros; apply H; now right]. specialize (H x (or_introl eq_refl)).
  destruct (Nat.leb_spec 0 x), (Nat.ltb_spec x (0 + n)); cbn; lia.
Qed.

Lemma mirror_cases D : reachable D ->
  (forall a b, times a (linked_nodes D b) = uses D a b) /\
  (forall b, uses_count D b = list_sum (map (fun a => uses D a b) (seq 0 (fresh D)))) /\
  (forall b, is_used D b = true <-> exists a, 0 < uses D a b).
Proof.
  intros H. pose proof (reach_linv D H) as I. destruct (reachable_inv D H) as (F & J & _).
  assert (E : forall a b, times a (linked_nodes D b) = uses D a b) by exact (li_sym D I).
  split; [exact E|]. split.
  - intros b. unfold uses_count. rewrite (count_sum _ (fresh D)).
    + f_equal. apply map_ext. intros a. exact (E a b).
    + intros x Hx. destruct (Nat.lt_ge_cases x (fresh D)) as [|Hge]; [easy|]. exfalso.
      assert (P : 0 < times x (linked_nodes D b)) by now apply count_occ_In.
      rewrite E in P. unfold uses, attributes in P. rewrite (iv_blank D F J x Hge) in P. cbn in P. lia.
  - intros b. unfold is_used. split.
    + destruct (linked_nodes D b) as [|a l] eqn:El; [easy|]. intros _. exists a. rewrite <- E, El.
      apply count_occ_In. now left.
    + intros (a & Ha). rewrite <- E in Ha. apply count_occ_In in Ha. now destruct (linked_nodes D b).
Qed.

Lemma no_loops D : reachable D -> forall a b, 0 < uses D a b -> a <> b /\ uses D b a = 0.
Proof.
  intros H a b U. pose proof (reach_linv D H) as I. pose proof (li_mutual D I a b U) as M. split; [|exact M].
  intros ->. unfold uses in *. unfold count_links, links_to in M. lia.
Qed.

Lemma if_none_cases D n a : reachable D ->
  (In (a_name a) (map a_name (attributes D n)) -> set_attribute_if_none n a D = Ok D) /\
  (~ In (a_name a) (map a_name (attributes D n)) -> set_attribute_if_none n a D = set_attribute n a D).
Proof.
  intros H. unfold set_attribute_if_none. destruct (get_cases D n (a_name a) H) as (G & _).
  destruct (has_attribute D n (a_name a)); cbn [negb]; split; intros Hi; try easy.
  - exfalso. now apply Hi, G.
  - now apply G in Hi.
Qed.

Lemma shape_cases D : reachable D -> forall n a, In a (attributes D n) -> a_value a = shape (a_name a) (a_value a).
Proof.
  intros H n a Ha. destruct (reachable_inv D H) as (F & J & _). pose proof (iv_shape D F J n a Ha) as E.
  rewrite stored_shape in E. destruct a as [nm v]. cbn in *. injection E as E. now rewrite E.
Qed.

Lemma stored_value D n a D' : reachable D -> set_attribute_checked n a D = Ok (D', ROk) ->
  attrs_get_value (attributes D' n) (a_name a) = Some (shape (a_name a) (a_value a)).
Proof.
  intros H E. destruct (is_element D n) eqn:He.
  2:{ unfold set_attribute_checked in E. rewrite He in E. easy. }
  pose proof (checked_cases D n a H He) as C. destruct (refused D n a); [rewrite E in C; easy|].
  destruct C as (D1 & E1 & _ & Ha & _). rewrite E in E1. injection E1 as <-. rewrite Ha.
  assert (G : forall l v, attrs_get_value (others (a_name a) l ++ [mkAttr (a_name a) v]) (a_name a) = Some v).
  { induction l as [|x l IH]; intros v; cbn [others filter app attrs_get_value a_name a_value].
    - assert (aname_eqb (a_name a) (a_name a) = true) as -> by now apply aname_eqb_eq. reflexivity.
    - destruct (aname_eqb (a_name x) (a_name a)) eqn:Ex; cbn [negb]; [apply IH|].
      cbn [app attrs_get_value]. rewrite Ex. apply IH. }
  apply G.
Qed.

Lemma never_panics D n : reachable D ->
  (forall name k, remove_attribute n name D <> Panic k) /\
  (is_element D n = true -> forall a k, set_attribute_checked n a D <> Panic k).
Proof.
  intros H. split.
  - intros name k. destruct (remove_cases D n name H) as (D' & -> & _). easy.
  - intros He a k. pose proof (checked_cases D n a H He) as C. destruct (refused D n a); [now rewrite C|].
    destruct C as (D' & -> & _). easy.
Qed.
