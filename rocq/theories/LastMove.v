(* The last move of a node counts, and a node that has been detached can be put anywhere. *)
From Coq Require Import List Bool PeanoNat NArith Lia Sorting.Permutation.
From Verif Require Import Base Ids Links Tree ForestSpec TreeSpec ListFacts ForestFacts TreeProofs TreeApi PruneFacts Data Attrs Slab NodeApi Doc
  AttrFacts AttrSpec DocSpec NodeSpec History InvProofs HistoryProofs ApiProofs DocApi UndoSpec UndoProofs ApartSpec Text Writer WriterSpec
  SameProofs CommuteSpec CommuteProofs.
Import ListNotations.
Open Scope nat_scope.

Lemma rm_put_own n a q l : beside a <> Some n -> rm n (put a n q (rm n l)) = rm n l.
Proof.
  intros H. assert (I : rm n (rm n l) = rm n l) by apply rm_idem.
  assert (Z : rm n [n] = []) by (rewrite rm_cons, Nat.eqb_refl; reflexivity).
  assert (IA : forall x k, rm n (ins_a x n k) = rm n k) by (intros x k; induction k as [|y k IH]; eqs).
  assert (IB : forall x k, rm n (ins_b x n k) = rm n k) by (intros x k; induction k as [|y k IH]; eqs).
  destruct a as [|p|p|x|x]; cbn [put]; [exact I| | |now rewrite IA|now rewrite IB].
  - destruct (is_at q p); [|exact I]. now rewrite rm_cons, Nat.eqb_refl.
  - destruct (is_at q p); [|exact I]. now rewrite rm_app, Z, app_nil_r.
Qed.

Lemma placed_over n a b F F1 F2 : placed n a F F1 -> placed n b F1 F2 -> placed n b F F2.
Proof.
  intros A B.
  assert (Ha : beside a <> Some n) by (intros E; now destruct (pl_beside _ _ _ _ A n E)).
  assert (Hb : forall x, beside b = Some x -> x <> n) by (intros x E; now destruct (pl_beside _ _ _ _ B x E)).
  split.
  - rewrite (pl_own _ _ _ _ B). destruct b as [|p|p|x|x]; cbn [over beside] in *; try easy; apply (pl_parent _ _ _ _ A); now apply Hb.
  - intros m Hm. now rewrite (pl_parent _ _ _ _ B), (pl_parent _ _ _ _ A).
  - intros q. now rewrite (pl_children _ _ _ _ B), (pl_children _ _ _ _ A), rm_put_own.
  - intros m Hm E. rewrite (pl_chain _ _ _ _ B m Hm), (pl_chain _ _ _ _ A m Hm E), rm_put_own; [easy|exact Ha|].
    now rewrite (pl_parent _ _ _ _ A).
  - apply (pl_alone _ _ _ _ B).
  - apply (pl_beside _ _ _ _ B).
Qed.

Lemma placed_same n a F G H : wf_forest G -> wf_forest H -> placed n a F G -> placed n a F H -> forest_eq H G.
Proof.
  intros W W' A B.
  assert (Other : forall x, x <> n -> parent_of F x = None -> siblings_of H x = siblings_of G x).
  { intros x Hx E. now rewrite (pl_chain _ _ _ _ A x Hx E), (pl_chain _ _ _ _ B x Hx E). }
  apply same_forest; [exact W|exact W'| | |].
  - intros x. destruct (Nat.eq_dec x n) as [->|Hx].
    + now rewrite (pl_own _ _ _ _ A), (pl_own _ _ _ _ B).
    + now rewrite (pl_parent _ _ _ _ A), (pl_parent _ _ _ _ B).
  - intros q. now rewrite (pl_children _ _ _ _ A), (pl_children _ _ _ _ B).
  - intros x E. destruct (Nat.eq_dec x n) as [->|Hx].
    + rewrite (pl_own _ _ _ _ A) in E. destruct (beside a) as [y|] eqn:Ey.
      * destruct (pl_beside _ _ _ _ A y Ey) as (Hy & ->). destruct (pl_beside _ _ _ _ B y Ey) as (_ & ->).
        apply Other; [exact Hy|]. destruct a; try discriminate; injection Ey as ->; exact E.
      * assert (a = Nowhere) as -> by now destruct a. now rewrite (pl_alone _ _ _ _ A eq_refl), (pl_alone _ _ _ _ B eq_refl).
    + apply Other; [exact Hx|]. now rewrite (pl_parent _ _ _ _ A) in E.
Qed.

Lemma last_counts D o1 o2 n a b D1 D2 : reachable D -> goes o1 = Some (n, a) -> goes o2 = Some (n, b) ->
  both_calls o1 o2 D = Ok D1 -> step o2 D = Ok D2 -> as_before D1 D2.
Proof.
  intros R G1 G2 H1 H2. unfold both_calls in H1. ok_bind H1 X E1.
  destruct (reachable_shows D R) as (F & S).
  destruct (goes_placed o1 n a D X G1 E1) as ((LX & EX) & KX). destruct (KX F S) as (FX & SX & PX).
  destruct (goes_placed o2 n b X D1 G2 H1) as ((L1 & EL1) & K1). destruct (K1 FX SX) as (F1 & S1 & P1).
  destruct (goes_placed o2 n b D D2 G2 H2) as ((L2 & EL2) & K2). destruct (K2 F S) as (F2 & S2 & P2).
  apply (links_only_back D1 D2 F1 F2); [subst; reflexivity|subst; reflexivity|exact S1|exact S2|].
  apply (placed_same n b F F1 F2 (sh_wf _ _ S1) (sh_wf _ _ S2)); [exact (placed_over n a b F FX F1 PX P1)|exact P2].
Qed.

(* ---- detach first *)
Lemma detached_first_returns D o n a : reachable D -> acyclic_dom D -> legal o D -> goes o = Some (n, a) -> no_cycle_made o D ->
  exists X D', step (ODetach n) D = Ok X /\ step o X = Ok D'.
Proof.
  intros R A L G N.
  assert (Hn : exists_node D n) by (apply (proj1 L); destruct o; try discriminate; injection G as -> <-; cbn; tauto).
  assert (LG : legal (ODetach n) D) by (split; [intros y [<-|[]]; exact Hn|exact Logic.I]).
  destruct (proj2 (reach_detach D R n) (proj1 (proj2 (reach_no_self D R A n)))) as (X & E).
  assert (RX : reachable X) by exact (reach_step D (ODetach n) X R LG E).
  assert (AX : acyclic_dom X) by exact (proj2 (cycle_exact (ODetach n) D X R A LG E) Logic.I).
  exists X.
  destruct (reachable_shows D R) as (F & S). destruct (detach_call D n X E) as (_ & _ & K). destruct (K F S) as (F' & S' & (P & Q & M)).
  assert (T : forall x, ~ touches (lk X) n x).
  { intros x. unfold touches. rewrite (sh_parent _ _ S'), (sh_next _ _ S'), (sh_prev _ _ S'), P, Q. unfold pred_in. cbn [rev app succ_in].
    rewrite Nat.eqb_refl. cbn [hd_error]. intros [H|[H|(H & _)]]; discriminate. }
  assert (PA : forall m, m <> n -> parent (lk X) m = parent (lk D) m).
  { intros m Hm. rewrite (sh_parent _ _ S'), (sh_parent _ _ S). apply (mo_parent _ _ _ _ _ M), Hm. }
  assert (Z : forall p, ~ above (lk D) n p -> p <> n) by (intros p Hp ->; apply Hp; constructor).
  destruct o; try discriminate; injection G as -> <-; cbn [no_cycle_made] in N.
  - destruct (proj2 (reach_detach X RX n)) as (D' & E'); [apply T|]. exists D'. now split.
  - destruct (reach_append X RX p n) as (_ & _ & J). destruct (J (Z p N)) as (D' & E'); [|exists D'; now split].
    intros [H|[H|H]]; [exact (T _ H)|exact (T _ H)|]. destruct (reach_no_self X RX AX p) as (? & ? & ? & ?); contradiction.
  - destruct (reach_prepend X RX p n) as (_ & _ & J). destruct (J (Z p N)) as (D' & E'); [|exists D'; now split].
    intros [H|[H|H]]; [exact (T _ H)|exact (T _ H)|]. destruct (reach_no_self X RX AX p) as (? & ? & ? & ?); contradiction.
  - destruct (reach_insert_after X RX a0 n) as (_ & _ & J). destruct (J (Z a0 N)) as (D' & E'); [|exists D'; now split].
    intros [H|[H|(_ & [H|H])]]; [exact (T _ H)|exact (T _ H)| |].
    + rewrite PA in H by now apply Z. apply N. apply (above_up _ n a0 n H). constructor.
    + destruct (reach_no_self X RX AX a0) as (? & ? & ? & ?); contradiction.
  - destruct (reach_insert_before X RX a0 n) as (_ & _ & J). destruct (J (Z a0 N)) as (D' & E'); [|exists D'; now split].
    intros [H|[H|(_ & H)]]; [exact (T _ H)|exact (T _ H)|]. destruct (reach_no_self X RX AX a0) as (? & ? & ? & ?); contradiction.
Qed.

Section After.
  Context (n : nid) (F X : forest) (W : wf_forest F) (WX : wf_forest X) (H : detached n F X).
  Lemma mo_after (target chain chain' : nid -> Prop) F' :
    (forall m, chain' m -> chain m) -> moved_only n target chain' X F' -> moved_only n target chain F F'.
  Proof.
    intros Hc M. destruct H as (P & Q & MX). split.
    - intros m Hm. now rewrite (mo_parent _ _ _ _ _ M), (mo_parent _ _ _ _ _ MX).
    - intros q Hq. rewrite (mo_children _ _ _ _ _ M q Hq), (mo_children _ _ _ _ _ MX q) by tauto. apply rm_idem.
    - intros Hn Ht. rewrite (mo_own _ _ _ _ _ M); [|rewrite P; discriminate|exact Ht]. apply (mo_own _ _ _ _ _ MX); [exact Hn|tauto].
    - intros m Hm E Hch. rewrite (mo_chain _ _ _ _ _ M m Hm), (mo_chain _ _ _ _ _ MX m Hm E); [apply rm_idem|tauto| |].
      + now rewrite (mo_parent _ _ _ _ _ MX).
      + intros K. apply Hch, Hc, K.
  Qed.
  Lemma sib_after a : a <> n -> siblings_of X a = rm n (siblings_of F a).
  Proof.
    intros Ha. destruct H as (P & Q & MX). destruct (parent_of F a) as [p|] eqn:E.
    - rewrite (wf_parent F W a p E), (wf_parent X WX a p) by now rewrite (mo_parent _ _ _ _ _ MX).
      apply (mo_children _ _ _ _ _ MX). tauto.
    - now apply (mo_chain _ _ _ _ _ MX); [|exact E|].
  Qed.
  Lemma par_after a : a <> n -> parent_of X a = parent_of F a.
  Proof. intros Ha. destruct H as (_ & _ & MX). now apply (mo_parent _ _ _ _ _ MX). Qed.
  Lemma kids_after p : children_of X p = rm n (children_of F p).
  Proof. destruct H as (_ & _ & MX). apply (mo_children _ _ _ _ _ MX). tauto. Qed.

  Lemma appended_after p F' : appended p n X F' -> appended p n F F'.
  Proof.
    intros (P & C & M). split; [exact P|]. split; [now rewrite C, kids_after, rm_idem|].
    now apply (mo_after _ _ (fun _ => False)).
  Qed.
  Lemma prepended_after p F' : prepended p n X F' -> prepended p n F F'.
  Proof.
    intros (P & C & M). split; [exact P|]. split; [now rewrite C, kids_after, rm_idem|].
    now apply (mo_after _ _ (fun _ => False)).
  Qed.
  Lemma inserted_after_after a F' : a <> n -> inserted_after a n X F' -> inserted_after a n F F'.
  Proof.
    intros Ha (P & (l1 & l2 & C & C') & M). unfold inserted_after. rewrite <- (par_after a Ha). split; [exact P|]. split.
    - exists l1, l2. split; [|exact C']. now rewrite <- C, (sib_after a Ha), rm_idem.
    - apply (mo_after _ _ (fun m => In m (siblings_of X a))); [|exact M]. intros m. rewrite (sib_after a Ha), in_rm. tauto.
  Qed.
  Lemma inserted_before_after a F' : a <> n -> inserted_before a n X F' -> inserted_before a n F F'.
  Proof.
    intros Ha (P & (l1 & l2 & C & C') & M). unfold inserted_before. rewrite <- (par_after a Ha). split; [exact P|]. split.
    - exists l1, l2. split; [|exact C']. now rewrite <- C, (sib_after a Ha), rm_idem.
    - apply (mo_after _ _ (fun m => In m (siblings_of X a))); [|exact M]. intros m. rewrite (sib_after a Ha), in_rm. tauto.
  Qed.
End After.

Lemma detached_first D o n a : reachable D -> acyclic_dom D -> legal o D -> goes o = Some (n, a) -> no_cycle_made o D ->
  exists D', both_calls (ODetach n) o D = Ok D' /\ acyclic_dom D' /\ dt D' = dt D /\ store D' = store D /\
  forall F, shows (lk D) F -> exists F', shows (lk D') F' /\
    match a with
    | Nowhere => detached n F F'
    | FirstIn p => prepended p n F F'
    | LastIn p => appended p n F F'
    | After x => inserted_after x n F F'
    | Before x => inserted_before x n F F'
    end.
Proof.
  intros R A L G N. destruct (detached_first_returns D o n a R A L G N) as (X & D' & E & E').
  assert (Hn : exists_node D n) by (apply (proj1 L); destruct o; try discriminate; injection G as -> <-; cbn; tauto).
  assert (LG : legal (ODetach n) D) by (split; [intros y [<-|[]]; exact Hn|exact Logic.I]).
  assert (RX : reachable X) by exact (reach_step D (ODetach n) X R LG E).
  assert (AX : acyclic_dom X) by exact (proj2 (cycle_exact (ODetach n) D X R A LG E) Logic.I).
  destruct (goes_placed (ODetach n) n Nowhere D X eq_refl E) as ((LX & EX) & _).
  destruct (detach_call D n X E) as (E1 & E2 & K).
  assert (LX' : legal o X) by (subst X; destruct o; try discriminate; exact L).
  assert (PA : forall m, m <> n -> parent (lk X) m = parent (lk D) m).
  { intros m Hm. destruct (reachable_shows D R) as (F & S). destruct (K F S) as (F' & S' & (_ & _ & M)).
    rewrite (sh_parent _ _ S'), (sh_parent _ _ S). apply (mo_parent _ _ _ _ _ M), Hm. }
  assert (PN : parent (lk X) n = None).
  { destruct (reachable_shows D R) as (F & S). destruct (K F S) as (F' & S' & (P & _)). now rewrite (sh_parent _ _ S'). }
  assert (AB : forall x y, above (lk X) x y -> above (lk D) x y).
  { intros x y J. induction J as [y|x y p Hp J IH]; [constructor|].
    destruct (Nat.eq_dec y n) as [->|Hy]; [congruence|]. apply (above_up _ x y p); [now rewrite <- PA|exact IH]. }
  assert (NX : no_cycle_made o X).
  { destruct o; try discriminate; cbn [no_cycle_made] in *; try exact Logic.I; intros J; apply N, AB, J. }
  exists D'. unfold both_calls. rewrite E. cbn [bind]. split; [exact E'|].
  split; [exact (proj2 (cycle_exact o X D' RX AX LX' E') NX)|].
  destruct (goes_placed o n a X D' G E') as ((LD & ED) & _).
  split; [subst D'; exact E1|]. split; [subst D'; exact E2|].
  intros F S. destruct (K F S) as (FX & SX & DX). pose proof (sh_wf _ _ S) as W. pose proof (sh_wf _ _ SX) as WX.
  assert (Z : forall p, ~ above (lk D) n p -> p <> n) by (intros p Hp ->; apply Hp; constructor).
  destruct o; try discriminate; injection G as -> <-; cbn [no_cycle_made] in N.
  - destruct (detach_call _ _ _ E') as (_ & _ & J). destruct (J FX SX) as (F' & S' & (P & Q & M)). exists F'. split; [exact S'|].
    split; [exact P|]. split; [exact Q|]. now apply (mo_after n F FX DX _ _ (fun _ => False)).
  - destruct (append_call _ _ _ _ E') as (_ & _ & J). destruct (J FX SX) as (F' & S' & M). exists F'. split; [exact S'|].
    now apply (appended_after n F FX DX).
  - destruct (prepend_call _ _ _ _ E') as (_ & _ & J). destruct (J FX SX) as (F' & S' & M). exists F'. split; [exact S'|].
    now apply (prepended_after n F FX DX).
  - destruct (insert_after_call _ _ _ _ E') as (_ & _ & J). destruct (J FX SX) as (F' & S' & M). exists F'. split; [exact S'|].
    apply (inserted_after_after n F FX W WX DX); [now apply Z|exact M].
  - destruct (insert_before_call _ _ _ _ E') as (_ & _ & J). destruct (J FX SX) as (F' & S' & M). exists F'. split; [exact S'|].
    apply (inserted_before_after n F FX W WX DX); [now apply Z|exact M].
Qed.
