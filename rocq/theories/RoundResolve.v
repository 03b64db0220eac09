(* Resolving the references of the written output gives the attributes of the written document. *)
From Coq Require Import String List Bool PeanoNat NArith Permutation Sorted Lia.
From Verif Require Import Base Ids Names NamesProofs Links Tree Iter ForestSpec TreeSpec ListFacts TreeProofs ForestFacts
  IterSpec IterProofs Data Attrs AttrFacts AttrSpec Slab NodeApi Doc History LinkProofs InvProofs HistoryProofs TreeApi ApiProofs
  Text TextSpec Writer WriterSpec WriterProofs WriterApi Parser ParserSpec ParserTree ParserLinks ParserApi ParserMeaning RoundSpec RoundRead RoundMatch.
Import ListNotations.
Open Scope nat_scope.
Open Scope list_scope.

(* ---- places are one to one *)
Lemma in_combine_split {A B} (l : list A) : forall (m : list B) x y, In (x, y) (combine l m) -> In x l /\ In y m.
Proof. intros m x y H. split; [eapply in_combine_l|eapply in_combine_r]; exact H. Qed.
Lemma combine_fun {A B} (l : list A) : NoDup l -> forall (m : list B) x y y', In (x, y) (combine l m) -> In (x, y') (combine l m) -> y = y'.
Proof.
  induction 1 as [|a l Ha Hl IH]; intros [|b m] x y y' H H'; try easy. destruct H as [E|H]; destruct H' as [E'|H'].
  - congruence.
  - exfalso. apply Ha. apply in_combine_l in H'. congruence.
  - exfalso. apply Ha. apply in_combine_l in H. congruence.
  - now apply (IH m x).
Qed.
Lemma combine_inj {A B} (m : list B) : NoDup m -> forall (l : list A) x x' y, In (x, y) (combine l m) -> In (x', y) (combine l m) -> x = x'.
Proof.
  induction 1 as [|b m Hb Hm IH]; intros [|a l] x x' y H H'; try easy. destruct H as [E|H]; destruct H' as [E'|H'].
  - congruence.
  - exfalso. apply Hb. apply in_combine_r in H'. congruence.
  - exfalso. apply Hb. apply in_combine_r in H. congruence.
  - now apply (IH l x x' y).
Qed.
Lemma combine_total {A B} (l : list A) : forall (m : list B), length l = length m -> forall x, In x l -> exists y, In (x, y) (combine l m).
Proof.
  induction l as [|a l IH]; intros [|b m] E x Hx; try easy. destruct Hx as [->|Hx]; [exists b; now left|].
  destruct (IH m (eq_add_S _ _ E) x Hx) as (y & Hy). exists y. now right.
Qed.
Lemma combine_find {A B} (f : A -> bool) (g : B -> bool) (l : list A) : forall (m : list B), length l = length m ->
  (forall x y, In (x, y) (combine l m) -> f x = g y) ->
  match find f l, find g m with
  | Some x, Some y => In (x, y) (combine l m)
  | None, None => True
  | _, _ => False
  end.
Proof.
  induction l as [|a l IH]; intros [|b m] E H; try easy. cbn [find]. rewrite (H a b (or_introl eq_refl)).
  destruct (g b); [now left|].
  specialize (IH m (eq_add_S _ _ E) (fun x y Hxy => H x y (or_intror Hxy))). destruct (find f l), (find g m); try easy. now right.
Qed.

Section Resolve.
Context (P : values) (W : writers) (D : dom) (F : forest) (t : tree) (D1 : dom) (t1 : tree) (ls : list link).
Context (I : InvF D F) (Ht : tree_at F t) (PO : portable P W D F t).
Context (Hshape : same_shape t t1) (Hnd : NoDup (preorder t)) (Hnd1 : NoDup (preorder t1)).
Let R := same_place t t1.
Context (HM : forall n n', R n n' -> matches P W D F D1 ls n n').
Context (HL : forall d, In d ls -> exists n x e, R n (l_node d) /\ In x (attributes D n) /\ a_name x = QId (l_attr d) /\
     tag_name D n = QId e /\ meaning P e (l_attr d, value_text W D x) = OLink (l_iri d) (l_fallback d)).

Lemma R_fun n a b : R n a -> R n b -> a = b.
Proof. now apply combine_fun. Qed.
Lemma R_inj a b n : R a n -> R b n -> a = b.
Proof. now apply combine_inj. Qed.
Lemma R_total n : In n (preorder t) -> exists n', R n n'.
Proof. apply combine_total. now apply shape_length. Qed.
Lemma R_in n n' : R n n' -> In n (preorder t).
Proof. intros H. now apply in_combine_l in H. Qed.

Lemma value_fun v a b : same_value t t1 v a -> same_value t t1 v b -> a = b.
Proof.
  intros Ha Hb. inversion Ha; subst; inversion Hb; subst; try easy; try (f_equal; eapply R_fun; eassumption).
Qed.
Lemma value_target v v' : same_value t t1 v v' ->
  match link_target v, link_target v' with Some x, Some x' => R x x' | None, None => True | _, _ => False end.
Proof. intros H. inversion H as [? E| | |]; subst; cbn; try easy. now rewrite E. Qed.

Lemma plain_same v v' : link_target v = None -> same_value t t1 v v' -> v' = v.
Proof. intros H Hv. destruct Hv; [easy|discriminate H..]. Qed.

(* What has been set so far. *)
Definition so_far (Dk : dom) (done : list link) : Prop :=
  (forall n n', R n n' -> id_of Dk n' = id_of D n) /\
  forall n n', R n n' -> forall q v', In (mkAttr q v') (attributes Dk n') <->
    exists a x e, q = QId a /\ In x (attributes D n) /\ a_name x = QId a /\ tag_name D n = QId e /\ same_value t t1 (a_value x) v' /\
      (meaning P e (a, value_text W D x) = OValue (a_value x) \/ exists d, In d done /\ l_node d = n' /\ l_attr d = a).

Lemma survives_at n x a e : In n (preorder t) -> In x (attributes D n) -> a_name x = QId a -> tag_name D n = QId e ->
  survives P W D t e n a x.
Proof.
  intros Hn Hx Ea Et. destruct (po_attr _ _ _ _ _ PO n x Hn Hx) as (a' & e' & E1 & E2 & _ & _ & _ & Hs).
  assert (a' = a) by congruence. assert (e' = e) by congruence. now subst.
Qed.

Lemma meaning_value n x a e v : In n (preorder t) -> In x (attributes D n) -> a_name x = QId a -> tag_name D n = QId e ->
  meaning P e (a, value_text W D x) = OValue v -> v = a_value x /\ link_target v = None.
Proof.
  intros Hn Hx Ea Et Hm. pose proof (survives_at n x a e Hn Hx Ea Et) as Hs. unfold survives in Hs.
  destruct (link_target (a_value x)) as [y|] eqn:El.
  - destruct Hs as (Hs & _). congruence.
  - destruct Hs as [Hs|(iri & fb & Hs & _)]; [|congruence]. rewrite Hm in Hs. injection Hs as ->. now split.
Qed.

Lemma so_far_start : so_far D1 [].
Proof.
  split; [intros n n' H; apply (ma_id _ _ _ _ _ _ _ _ (HM n n' H))|].
  intros n n' Hr q v'. pose proof (R_in n n' Hr) as Hn. rewrite (ma_value _ _ _ _ _ _ _ _ (HM n n' Hr)). split.
  - intros (a & x & e & -> & Hx & Ea & Et & Hm). exists a, x, e. destruct (meaning_value n x a e v' Hn Hx Ea Et Hm) as (-> & El).
    repeat split; try easy; [now constructor|now left].
  - intros (a & x & e & -> & Hx & Ea & Et & Hv & [Hm|(d & [] & _)]). exists a, x, e. repeat split; try easy.
    destruct (meaning_value n x a e _ Hn Hx Ea Et Hm) as (_ & El). now rewrite (plain_same _ _ El Hv).
Qed.

Lemma shape_at n x : In x (attributes D n) -> a_value x = shape (a_name x) (a_value x).
Proof.
  intros Hx. pose proof (iv_shape D F I n x Hx) as E. rewrite stored_shape in E. rewrite <- E at 1. reflexivity.
Qed.

(* A reference with a target leads to the same place. *)
Lemma pointing_same n x a y y' d : In x (attributes D n) -> a_name x = QId a -> link_target (a_value x) = Some y -> R y y' ->
  l_attr d = a -> l_fallback d = fallback_of (a_value x) -> same_value t t1 (a_value x) (pointing d y').
Proof.
  intros Hx Ea El Hy Ed Ef. rewrite (shape_at n x Hx). unfold shape, pointing. rewrite El, Ea, Ed, Ef.
  destruct a; now constructor.
Qed.

Lemma find_id Dk id : (forall n n', R n n' -> id_of Dk n' = id_of D n) ->
  match first_with_id D t id, first_with_id Dk t1 id with Some x, Some x' => R x x' | None, None => True | _, _ => False end.
Proof.
  intros H. unfold first_with_id. apply combine_find; [now apply shape_length|]. intros x y Hxy. now rewrite (H x y Hxy).
Qed.

Lemma so_far_step Dk Dk' done d : In d ls -> so_far Dk done -> resolves t1 d Dk Dk' -> so_far Dk' (done ++ [d]).
Proof.
  intros Hd (Hid & Hat) Hres. destruct (HL d Hd) as (n & x & e & Hn & Hx & Ea & Et & Hm).
  pose proof (R_in _ _ Hn) as Hin. pose proof (survives_at n x _ e Hin Hx Ea Et) as Hs.
  assert (Hset : exists v, only_set Dk Dk' (l_node d) (l_attr d) v /\ same_value t t1 (a_value x) v).
  { unfold survives in Hs. unfold resolves in Hres. destruct (link_target (a_value x)) as [y|] eqn:El.
    - destruct Hs as (Hs & Hne & Hdiff & Hfirst). rewrite Hm in Hs. injection Hs as Hiri Hfb. rewrite Hiri in Hres.
      pose proof (find_id Dk (id_of D y) Hid) as Hf. rewrite Hfirst in Hf.
      destruct (first_with_id Dk t1 (id_of D y)) as [y'|]; [|easy].
      assert (Href : refused Dk (l_node d) (mkAttr (QId (l_attr d)) (VLink y')) = None).
      { unfold refused. cbn [a_value link_target]. rewrite (Hid y y' Hf), (Hid n _ Hn).
        destruct (str_eqb (id_of D y) []) eqn:E1; [apply str_eqb_eq in E1; easy|].
        destruct (str_eqb (id_of D n) (id_of D y)) eqn:E2; [apply str_eqb_eq in E2; congruence|].
        destruct (Nat.ltb 0 (uses Dk y' (l_node d))) eqn:E3; [|easy]. exfalso.
        apply uses_some in E3. destruct E3 as ([q v'] & Hb & Hbt). cbn [a_value] in Hbt.
        apply (Hat y y' Hf) in Hb. destruct Hb as (a2 & x2 & e2 & _ & Hx2 & _ & _ & Hv & _).
        apply value_target in Hv. rewrite Hbt in Hv. destruct (link_target (a_value x2)) as [z|] eqn:Ez; [|easy].
        assert (z = n) by (now apply (R_inj z n (l_node d))). subst z.
        assert (C : count_links n (attributes D y) = 0).
        { apply (li_mutual D (iv_link D F I)). apply count_links_pos. now exists x. }
        assert (C' : 0 < count_links n (attributes D y)) by (apply count_links_pos; now exists x2). lia. }
      rewrite Href in Hres. exists (pointing d y'). split; [easy|]. now apply (pointing_same n x (l_attr d) y).
    - destruct Hs as [Hs|(iri & fb & Hs & Hfirst & Hi)]; [congruence|]. rewrite Hm in Hs. injection Hs as Hiri Hfb. rewrite Hiri in Hres.
      pose proof (find_id Dk iri Hid) as Hf. rewrite Hfirst in Hf. destruct (first_with_id Dk t1 iri); [easy|].
      exists (instead d). split; [easy|]. replace (instead d) with (a_value x); [now constructor|]. rewrite <- Hi.
      unfold instead. cbn. now rewrite Hfb, Hiri. }
  destruct Hset as (v & (Hsame & Hset & Hrest) & Hv). split.
  { intros m m' Hr. rewrite (sn_id _ _ Hsame). now apply Hid. }
  intros m m' Hr q v'. destruct (Nat.eq_dec m' (l_node d)) as [->|Hne].
  - assert (m = n) by (now apply (R_inj m n (l_node d))). subst m. rewrite Hset, in_app_iff. unfold others. rewrite filter_In.
    cbn [a_name]. rewrite (Hat n (l_node d) Hn). split.
    + intros [((a2 & x2 & e2 & -> & Hx2 & Ea2 & Et2 & Hv2 & Hor) & _)|[[= <- <-]|[]]].
      * exists a2, x2, e2. repeat split; try easy. destruct Hor as [Hor|(d2 & Hd2 & Hor)]; [now left|]. right. exists d2.
        split; [apply in_or_app; now left|easy].
      * exists (l_attr d), x, e. repeat split; try easy. right. exists d. split; [|easy]. apply in_or_app. right. now left.
    + intros (a2 & x2 & e2 & -> & Hx2 & Ea2 & Et2 & Hv2 & Hor).
      destruct (aid_eqb a2 (l_attr d)) eqn:Eq.
      * apply aid_eqb_eq in Eq. subst a2. right. left.
        assert (x2 = x).
        { apply (unique_attr (attributes D n)); [apply (li_uniq D (iv_link D F I))|easy|easy|congruence]. }
        subst x2. now rewrite (value_fun _ _ _ Hv Hv2).
      * left. split; [|cbn [aname_eqb]; now rewrite Eq]. exists a2, x2, e2. repeat split; try easy.
        destruct Hor as [Hor|(d2 & Hd2 & E1 & E2)]; [now left|]. apply in_app_or in Hd2. destruct Hd2 as [Hd2|[<-|[]]].
        -- right. now exists d2.
        -- exfalso. rewrite E2 in Eq. assert (aid_eqb a2 a2 = true) by now apply aid_eqb_eq. congruence.
  - rewrite (Hrest m' Hne), (Hat m m' Hr). split; intros (a2 & x2 & e2 & -> & Hx2 & Ea2 & Et2 & Hv2 & Hor); exists a2, x2, e2;
      repeat split; try easy.
    + destruct Hor as [Hor|(d2 & Hd2 & Hor)]; [now left|]. right. exists d2. split; [apply in_or_app; now left|easy].
    + destruct Hor as [Hor|(d2 & Hd2 & E1 & E2)]; [now left|]. apply in_app_or in Hd2. destruct Hd2 as [Hd2|[<-|[]]]; [right; now exists d2|].
      exfalso. now apply Hne.
Qed.

Lemma so_far_all rest : forall Dk done D2, (forall d, In d rest -> In d ls) -> so_far Dk done -> resolved t1 rest Dk D2 ->
  so_far D2 (done ++ rest).
Proof.
  induction rest as [|d rest IH]; intros Dk done D2 Hin Hs Hr; inversion Hr; subst.
  - now rewrite app_nil_r.
  - replace (done ++ d :: rest) with ((done ++ [d]) ++ rest) by now rewrite <- app_assoc.
    apply (IH D3); [intros x Hx; apply Hin; now right| |easy]. apply (so_far_step Dk); try easy. apply Hin. now left.
Qed.

(* The attributes of the parsed document. *)
Theorem attributes_match D2 : resolved t1 ls D1 D2 -> forall n n', R n n' ->
  (forall q v, In (mkAttr q v) (attributes D n) -> exists v', In (mkAttr q v') (attributes D2 n') /\ same_value t t1 v v') /\
  (forall q v', In (mkAttr q v') (attributes D2 n') -> exists v, In (mkAttr q v) (attributes D n) /\ same_value t t1 v v').
Proof.
  intros Hr n n' Hn. destruct (so_far_all ls D1 [] D2 (fun d H => H) so_far_start Hr) as (_ & Hat). cbn [app] in Hat.
  pose proof (R_in n n' Hn) as Hin. split.
  - intros q v Hx. destruct (po_attr _ _ _ _ _ PO n _ Hin Hx) as (a & e & Ea & Et & _ & _ & _ & Hs). cbn [a_name] in Ea. subst q.
    assert (Hv : exists v', same_value t t1 v v').
    { unfold survives in Hs. cbn [a_value] in Hs. destruct (link_target v) as [y|] eqn:El.
      - destruct Hs as (_ & _ & _ & Hf). unfold first_with_id in Hf. apply find_some in Hf. destruct Hf as (Hy & _).
        destruct (R_total y Hy) as (y' & Hy'). destruct v; cbn in El; try discriminate El; injection El as ->;
          eexists; first [apply sv_link; exact Hy'|apply sv_func; exact Hy'|apply sv_paint; exact Hy'].
      - exists v. now constructor. }
    destruct Hv as (v' & Hv). exists v'. split; [|easy]. apply (Hat n n' Hn). exists a, (mkAttr (QId a) v), e.
    repeat split; try easy. cbn [a_value]. unfold survives in Hs. cbn [a_value] in Hs. destruct (link_target v) as [y|].
    + right. destruct Hs as (Hs & _). eexists. split; [apply (ma_link _ _ _ _ _ _ _ _ (HM n n' Hn) a _ e _ _ Hx eq_refl Et Hs)|easy].
    + destruct Hs as [Hs|(iri & fb & Hs & _)]; [now left|]. right. eexists.
      split; [apply (ma_link _ _ _ _ _ _ _ _ (HM n n' Hn) a _ e _ _ Hx eq_refl Et Hs)|easy].
  - intros q v' Hx. apply (Hat n n' Hn) in Hx. destruct Hx as (a & x & e & -> & Hx & Ea & _ & Hv & _).
    exists (a_value x). split; [|easy]. rewrite <- Ea. now destruct x.
Qed.
End Resolve.
