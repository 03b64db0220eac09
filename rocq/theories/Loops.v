(* Loops over children and descendants whose body does not change the tree, and sequences of calls. *)
From Coq Require Import List Bool PeanoNat NArith Lia.
From Verif Require Import Base Ids Links Tree Iter ForestSpec ListFacts TreeProofs ForestFacts IterSpec IterProofs
  Data Attrs Slab NodeApi Doc History Text.
Import ListNotations.

Lemma descendants_loop {A} (getL : A -> links) body L F t (P : list nid -> A -> Prop) :
  Rep L F -> tree_at F t ->
  (forall pre s, P pre s -> getL s = L) ->
  (forall pre n post s, preorder t = pre ++ n :: post -> P pre s -> exists s', body n s = Ok s' /\ P (pre ++ [n]) s') ->
  forall fuel s, 2 * length (preorder t) < fuel -> P [] s ->
  exists s', for_descendants getL fuel body (traverse (t_node t)) s = Ok s' /\ P (preorder t) s'.
Proof.
  intros R Ht HL Hb.
  assert (G : forall fuel pre mid it s, t_state L t pre mid it -> length mid < fuel -> P (starts pre) s ->
     exists s', for_descendants getL fuel body it s = Ok s' /\ P (preorder t) s').
  { induction fuel as [|fuel IH]; intros pre mid it s Hst Hf HP; [lia|]. cbn [for_descendants].
    rewrite (HL _ _ HP). pose proof (descendants_next_spec L F t R Ht (S fuel) pre mid it Hst Hf) as Hn.
    destruct Hst as (E & _). pose proof (starts_edges t) as Es. rewrite E, starts_app in Es.
    destruct (starts mid) as [|n l] eqn:Em.
    - destruct Hn as (it' & ->). cbn [bind]. exists s. split; [easy|]. now rewrite <- Es, app_nil_r.
    - destruct Hn as (pre' & mid' & it' & -> & Hst' & Ei & Hlen). cbn [bind].
      destruct (Hb (starts pre) n l s (eq_sym Es) HP) as (s' & -> & HP'). cbn [bind].
      apply (IH pre' mid' it' s' Hst'); [lia|].
      destruct Hst' as (E' & _). pose proof (starts_edges t) as Es'. rewrite E', starts_app in Es'.
      injection Ei as Ei. subst l. rewrite <- Es in Es'.
      replace (starts pre') with (starts pre ++ [n]); [exact HP'|].
      apply (app_inv_tail (starts mid')). rewrite Es', <- app_assoc. reflexivity. }
  intros fuel s Hf HP. apply (G fuel [] (edges t)).
  - split; [easy|]. unfold traverse. now rewrite edges_hd.
  - rewrite edges_length. lia.
  - exact HP.
Qed.

Lemma children_it L F p : Rep L F -> children L p = mkChildren (hd_error (children_of F p)) (last_error (children_of F p)).
Proof. intros R. unfold children, first_child, last_child. now rewrite (r_first L F R), (r_last L F R). Qed.

Lemma children_next_at L F p pre rest : Rep L F -> children_of F p = pre ++ rest ->
  children_next L (mkChildren (hd_error rest) (last_error (children_of F p))) =
  match rest with
  | [] => (None, mkChildren None (last_error (children_of F p)))
  | c :: r => (Some c, mkChildren (hd_error r) (last_error (children_of F p)))
  end.
Proof.
  intros R E. pose proof (children_good L F p R) as Hg.
  assert (Hlast : forall b, last_error (children_of F p) = Some b -> next_sibling L b = None).
  { intros b Hb. apply Hg. exact Hb. }
  unfold children_next, children_finished. cbn [c_next c_back].
  destruct rest as [|c r]; cbn [hd_error].
  - destruct (last_error (children_of F p)) as [b|]; [|easy]. now rewrite (Hlast b eq_refl).
  - destruct (last_error (children_of F p)) as [b|] eqn:Eb.
    + rewrite (Hlast b eq_refl). cbn [onid_eqb]. rewrite (proj1 (good_split _ _ _ _ _ _ Hg E)). reflexivity.
    + apply last_error_none in Eb. rewrite Eb in E. now destruct pre.
Qed.

Lemma children_loop {A} (getL : A -> links) body L F p (P : list nid -> A -> Prop) :
  Rep L F ->
  (forall pre s, P pre s -> getL s = L) ->
  (forall pre n post s, children_of F p = pre ++ n :: post -> P pre s -> exists s', body n s = Ok s' /\ P (pre ++ [n]) s') ->
  forall fuel s, length (children_of F p) < fuel -> P [] s ->
  exists s', for_children getL fuel body (children L p) s = Ok s' /\ P (children_of F p) s'.
Proof.
  intros R HL Hb.
  assert (G : forall fuel pre rest s, children_of F p = pre ++ rest -> length rest < fuel -> P pre s ->
     exists s', for_children getL fuel body (mkChildren (hd_error rest) (last_error (children_of F p))) s = Ok s' /\
       P (children_of F p) s').
  { induction fuel as [|fuel IH]; intros pre rest s E Hf HP; [lia|]. cbn [for_children].
    rewrite (HL _ _ HP), (children_next_at L F p pre rest R E). destruct rest as [|c rest].
    - exists s. split; [easy|]. rewrite app_nil_r in E. now rewrite E.
    - destruct (Hb pre c rest s E HP) as (s' & -> & HP'). cbn [bind].
      apply (IH (pre ++ [c])); [now rewrite <- app_assoc|cbn in Hf; lia|easy]. }
  intros fuel s Hf HP. rewrite (children_it L F p R). now apply (G fuel []).
Qed.

Lemma children_list_eq L F p fuel : Rep L F -> length (children_of F p) < fuel ->
  children_list fuel L (children L p) = Ok (children_of F p).
Proof.
  intros R.
  assert (G : forall k pre rest, children_of F p = pre ++ rest -> length rest < k ->
     children_list k L (mkChildren (hd_error rest) (last_error (children_of F p))) = Ok rest).
  { induction k as [|f IH]; intros pre rest E Hf; [lia|]. cbn [children_list].
    rewrite (children_next_at L F p pre rest R E). destruct rest as [|c rest]; [easy|].
    rewrite (IH (pre ++ [c]) rest); [easy|now rewrite <- app_assoc|cbn in Hf; lia]. }
  intros Hf. rewrite (children_it L F p R). now apply (G fuel []).
Qed.

(* Sequences of calls. *)
Inductive calls (P : op -> dom -> Prop) : dom -> dom -> Prop :=
| calls_nil : forall D, calls P D D
| calls_step : forall D o D1 D2, calls P D D1 -> legal o D1 -> no_cycle_made o D1 -> leafy o D1 -> P o D1 ->
    step o D1 = Ok D2 -> calls P D D2.

Lemma calls_trans P D1 D2 D3 : calls P D1 D2 -> calls P D2 D3 -> calls P D1 D3.
Proof. intros H1 H2. induction H2 as [|D o E1 E2 H IH Hl Hc Hf HP Hs]; [easy|]. apply (calls_step P D1 o E1 E2); auto. Qed.
Lemma calls_weaken (P Q : op -> dom -> Prop) D1 D2 : (forall o D, P o D -> Q o D) -> calls P D1 D2 -> calls Q D1 D2.
Proof. intros HP H. induction H as [|D o E1 E2 H IH Hl Hc Hf H1 Hs]; [constructor|]. apply (calls_step Q D o E1 E2); auto. Qed.
Lemma calls_reachable P D D' : calls P D D' -> reachable D -> reachable D'.
Proof. intros H HR. induction H as [|D o E1 E2 H IH Hl Hc Hf H1 Hs]; [easy|]. apply (reach_step E1 o E2); auto. Qed.
Lemma calls_tame P D D' : calls P D D' -> reachable_tame D -> reachable_tame D'.
Proof. intros H HR. induction H as [|D o E1 E2 H IH Hl Hc Hf H1 Hs]; [easy|]. apply (tame_step E1 o E2); auto. Qed.
Lemma calls_leafy P D D' : calls P D D' -> reachable_leafy D -> reachable_leafy D'.
Proof. intros H HR. induction H as [|D o E1 E2 H IH Hl Hc Hf H1 Hs]; [easy|]. apply (leafy_step E1 o E2); auto. Qed.
Lemma calls_orderly D D' : calls orderly D D' -> reachable_orderly D -> reachable_orderly D'.
Proof. intros H HR. induction H as [|D o E1 E2 H IH Hl Hc Hf H1 Hs]; [easy|]. apply (ord_step E1 o E2); auto. Qed.
