(* Nothing depends on the order of attributes and users. *)
From Coq Require Import List Bool PeanoNat NArith Lia Sorting.Permutation.
From Verif Require Import Base Ids Links Tree Iter ForestSpec TreeSpec ListFacts ForestFacts TreeProofs TreeApi PruneFacts Data Attrs Slab NodeApi Doc
  AttrFacts LinkProofs AttrSpec DocSpec NodeSpec History InvProofs HistoryProofs CopyProofs ApiProofs DocApi NodeProofs LoopSpec LoopExact
  MixProofs DrainEditProofs UndoSpec UndoProofs OrderSpec.
Import ListNotations.

(* ---- permutations *)
Lemma perm_filter {A} (p : A -> bool) l l' : Permutation l l' -> Permutation (filter p l) (filter p l').
Proof.
  induction 1 as [|x l l' _ IH|x y l|l l' l'' _ IH1 _ IH2]; cbn [filter].
  - constructor.
  - destruct (p x); [now constructor|exact IH].
  - destruct (p x), (p y); try reflexivity. constructor.
  - now rewrite IH1.
Qed.
Lemma edit_map l name a : NoDup (map a_name l) ->
  attrs_edit l name a = map (fun v => if aname_eqb (a_name v) name then a else v) l.
Proof.
  induction l as [|v l IH]; intros N; cbn [attrs_edit map]; [reflexivity|].
  cbn [map] in N. inversion N as [|? ? Hv Nl]; subst. destruct (aname_eqb (a_name v) name) eqn:E; [|now rewrite (IH Nl)].
  f_equal. apply aname_eqb_eq in E. subst name. clear IH N Nl. induction l as [|w l IH]; [reflexivity|]. cbn [map] in *.
  destruct (aname_eqb (a_name w) (a_name v)) eqn:E.
  - apply aname_eqb_eq in E. exfalso. apply Hv. left. exact E.
  - f_equal. apply IH. intros H. apply Hv. now right.
Qed.
Lemma perm_edit l l' name a : NoDup (map a_name l) -> Permutation l l' -> Permutation (attrs_edit l name a) (attrs_edit l' name a).
Proof.
  intros N P. rewrite (edit_map l name a N), edit_map; [now apply Permutation_map|].
  apply (Permutation_NoDup (l := map a_name l)); [now apply Permutation_map|exact N].
Qed.
Lemma perm_get l l' name : NoDup (map a_name l) -> Permutation l l' -> attrs_get l' name = attrs_get l name.
Proof.
  intros N P. assert (N' : NoDup (map a_name l')) by (apply (Permutation_NoDup (l := map a_name l)); [now apply Permutation_map|exact N]).
  assert (G : forall k a, NoDup (map a_name k) -> (attrs_get k name = Some a <-> In a k /\ a_name a = name)).
  { intros k a Nk. induction k as [|v k IH]; cbn [attrs_get In]; [split; [discriminate|tauto]|].
    cbn [map] in Nk. inversion Nk as [|? ? Hv Nk']; subst. destruct (aname_eqb (a_name v) name) eqn:E.
    - apply aname_eqb_eq in E. split.
      + intros [= ->]. tauto.
      + intros ([->|Hin] & Hn); [reflexivity|]. exfalso. apply Hv. rewrite E, <- Hn. now apply in_map.
    - rewrite (IH Nk'). split; [tauto|]. intros ([->|Hin] & Hn); [|tauto]. exfalso.
      assert (aname_eqb (a_name a) name = true) by now apply aname_eqb_eq. congruence. }
  destruct (attrs_get l name) as [a|] eqn:E.
  - apply (G l a N) in E. apply (G l' a N'). split; [|apply E]. apply (Permutation_in a P), E.
  - destruct (attrs_get l' name) as [a|] eqn:E'; [|reflexivity]. apply (G l' a N') in E'.
    assert (attrs_get l name = Some a); [|congruence]. apply (G l a N). split; [|apply E'].
    apply (Permutation_in a (Permutation_sym P)), E'.
Qed.
Lemma perm_contains l l' name : Permutation l l' -> attrs_contains l' name = attrs_contains l name.
Proof.
  intros P. unfold attrs_contains. assert (G : forall (k k' : list attr) p, Permutation k k' -> existsb p k = true -> existsb p k' = true).
  { intros k k' p Q H. apply existsb_exists in H. destruct H as (x & Hx & Hp). apply existsb_exists. exists x. split; [|exact Hp].
    now apply (Permutation_in x Q). }
  destruct (existsb _ l) eqn:E.
  - now apply (G l l' _ P).
  - destruct (existsb _ l') eqn:E'; [|reflexivity]. apply (G l' l _ (Permutation_sym P)) in E'. congruence.
Qed.

(* ---- the relation *)
Record sim_node (D D' : dom) (n : nid) : Prop := {
  si_type : node_type D' n = node_type D n;
  si_tag  : tag_name D' n = tag_name D n;
  si_id   : id_of D' n = id_of D n;
  si_text : text_of D' n = text_of D n;
  si_attr : Permutation (attributes D' n) (attributes D n);
  si_out  : is_detached D' n = is_detached D n
}.
Record rel (D D' : dom) : Prop := {
  rl_reach  : reachable D;
  rl_reach' : reachable D';
  rl_fresh  : fresh D' = fresh D;
  rl_root   : droot D' = droot D;
  rl_forest : exists F, shows (lk D) F /\ shows (lk D') F;
  rl_node   : forall n, exists_node D n -> sim_node D D' n
}.
Lemma rl_all D D' : rel D D' -> forall n, sim_node D D' n.
Proof.
  intros R n. destruct (Nat.lt_ge_cases n (fresh D)) as [Hn|Hn]; [exact (rl_node D D' R n Hn)|].
  destruct (reachable_inv D (rl_reach D D' R)) as (F & I & _). destruct (reachable_inv D' (rl_reach' D D' R)) as (F' & I' & _).
  assert (Hn' : fresh D' <= n) by now rewrite (rl_fresh D D' R).
  split; unfold node_type, tag_name, id_of, text_of, attributes, is_detached, storage_key;
    rewrite (iv_blank D F I n Hn), (iv_blank D' F' I' n Hn'); reflexivity.
Qed.
Lemma rel_uses D D' : rel D D' -> forall a b, uses D' a b = uses D a b.
Proof. intros R a b. unfold uses. apply Permutation_length, perm_filter, (si_attr D D' a (rl_all D D' R a)). Qed.
Lemma rel_users D D' : rel D D' -> forall n, Permutation (linked_nodes D' n) (linked_nodes D n).
Proof.
  intros R n. apply (Permutation_count_occ Nat.eq_dec). intros x.
  destruct (mirror_cases D (rl_reach D D' R)) as (M & _). destruct (mirror_cases D' (rl_reach' D D' R)) as (M' & _).
  pose proof (M x n) as E. pose proof (M' x n) as E'. unfold times in E, E'. unfold nid in *. rewrite E, E'. apply (rel_uses D D' R).
Qed.
Lemma rel_refl D : reachable D -> rel D D.
Proof.
  intros H. destruct (reachable_shows D H) as (F & S). split; try easy; now exists F.
Qed.

Lemma rel_akin D D' : rel D D' -> akin D D'.
Proof.
  intros R. destruct (rl_forest D D' R) as (F & S & S').
  assert (E : forest_eq F F) by (split; [|split]; reflexivity).
  pose proof (navigation_back D D' F F S S' E) as N. pose proof (rl_all D D' R) as A.
  split; try (intros n _; apply N); try (intros n _; apply A).
  - intros n. unfold exists_node. now rewrite (rl_fresh D D' R).
  - apply R.
  - intros n _. now apply rel_users.
Qed.
Lemma akin_rel D D' : reachable D -> reachable D' -> akin D D' -> rel D D'.
Proof.
  intros H H' A.
  assert (Ef : fresh D' = fresh D).
  { pose proof (ak_nodes D D' A) as X. unfold exists_node in X. pose proof (X (fresh D)). pose proof (X (fresh D')). lia. }
  split; try easy.
  - apply A.
  - destruct (reachable_inv D H) as (F & I & _). destruct (reachable_inv D' H') as (F' & I' & _). exists F.
    pose proof (proj2 (shows_Rep _ _) (iv_rep D F I)) as S. pose proof (proj2 (shows_Rep _ _) (iv_rep D' F' I')) as S'.
    split; [exact S|].
    assert (X : forall n, n < fresh D \/ (isolated F n /\ isolated F' n)).
    { intros n. destruct (Nat.lt_ge_cases n (fresh D)) as [Hn|Hn]; [now left|right].
      split; [now apply (iv_iso D F I)|apply (iv_iso D' F' I'); now rewrite Ef]. }
    split; [apply S| | | | | ]; intros n; destruct (X n) as [Hn|((i1 & i2 & i3) & (j1 & j2 & j3))].
    + rewrite (ak_parent D D' A n Hn). apply S.
    + now rewrite (sh_parent _ _ S'), i1, j1.
    + rewrite (ak_first D D' A n Hn). apply S.
    + now rewrite (sh_first _ _ S'), i3, j3.
    + rewrite (ak_last D D' A n Hn). apply S.
    + now rewrite (sh_last _ _ S'), i3, j3.
    + rewrite (ak_next D D' A n Hn). apply S.
    + now rewrite (sh_next _ _ S'), i2, j2.
    + rewrite (ak_previous D D' A n Hn). apply S.
    + now rewrite (sh_prev _ _ S'), i2, j2.
  - intros n Hn. split; now apply A.
Qed.

Lemma rel_element D D' n : rel D D' -> is_element D' n = is_element D n.
Proof. intros R. unfold is_element. now rewrite (si_type _ _ _ (rl_all D D' R n)). Qed.
Lemma rel_has D D' n x : rel D D' -> has_attribute D' n x = has_attribute D n x.
Proof. intros R. unfold has_attribute. symmetry. apply perm_contains, (rl_all D D' R n). Qed.
Lemma rel_get D D' n x : rel D D' -> attrs_get (attributes D' n) x = attrs_get (attributes D n) x.
Proof.
  intros R. symmetry. apply perm_get; [apply (reach_linv D' (rl_reach' D D' R))|apply (rl_all D D' R n)].
Qed.
Lemma rel_refused D D' n a : rel D D' -> refused D' n a = refused D n a.
Proof.
  intros R. unfold refused. destruct (link_target (a_value a)) as [t|]; [|reflexivity].
  now rewrite !(si_id _ _ _ (rl_all D D' R _)), (rel_uses D D' R).
Qed.

Lemma rel_legal o D D' : rel D D' -> legal o D -> legal o D'.
Proof.
  intros R (H1 & H2). split.
  - intros n Hn. unfold exists_node. rewrite (rl_fresh D D' R). now apply H1.
  - destruct o; try exact H2. cbn [plain_edit] in *. rewrite (rel_has D D' _ _ R).
    destruct H2 as (h1 & h2 & h3). split; [exact h1|]. split; [|exact h3]. intros old. rewrite (rel_get D D' _ _ R). apply h2.
Qed.

(* both calls are legal steps: the results are reachable *)
Lemma rel_step o D D' D1 D1' : rel D D' -> legal o D -> step o D = Ok D1 -> step o D' = Ok D1' ->
  reachable D1 /\ reachable D1'.
Proof.
  intros R L E E'. split.
  - exact (reach_step D o D1 (rl_reach D D' R) L E).
  - exact (reach_step D' o D1' (rl_reach' D D' R) (rel_legal o D D' R L) E').
Qed.

(* ---- moves *)
Lemma move_sim o D D' : rel D D' -> legal o D ->
  match o with OAppend _ _ | OPrepend _ _ | OInsertAfter _ _ | OInsertBefore _ _ | ODetach _ => True | _ => False end ->
  same_outcome rel (step o D) (step o D').
Proof.
  intros R L Ho. destruct (rl_forest D D' R) as (F & S & S'). apply shows_Rep in S, S'.
  assert (Fin : forall f G, (forall L, step o L = on_links f L) ->
    ((exists k, f (lk D) = Panic k) /\ (exists k, f (lk D') = Panic k) \/
     (exists L1, f (lk D) = Ok L1 /\ Rep L1 G) /\ (exists L1, f (lk D') = Ok L1 /\ Rep L1 G)) ->
    same_outcome rel (step o D) (step o D')).
  { intros f G Hf [((k & E) & (k' & E'))|((L1 & E & R1) & (L1' & E' & R1'))].
    - rewrite !Hf. unfold on_links. now rewrite E, E'.
    - assert (X : step o D = Ok (with_lk L1 D)) by (rewrite Hf; unfold on_links; now rewrite E).
      assert (X' : step o D' = Ok (with_lk L1' D')) by (rewrite Hf; unfold on_links; now rewrite E').
      rewrite X, X'. destruct (rel_step o D D' _ _ R L X X') as (r & r'). cbn [same_outcome]. split; try easy; try apply R.
      + exists G. split; now apply shows_Rep.
      + intros n Hn. destruct (rl_node D D' R n Hn). split; assumption. }
  destruct o as [| | | | | |n|p n|p n|p n|p n| | | | | | | | |]; try contradiction.
  - apply (Fin (detach [] n) (f_detach n F)); [reflexivity|].
    pose proof (detach_refines [] n (lk D) F S) as A. pose proof (detach_refines [] n (lk D') F S') as B.
    destruct (_ || _); [left; split; eexists; eassumption|right].
    destruct A as (a1 & a2 & a3 & _), B as (b1 & b2 & b3 & _). split; eexists; split; eassumption.
  - apply (Fin (append [] p n) (f_append p n F)); [reflexivity|].
    pose proof (append_refines [] p n (lk D) F S) as A. pose proof (append_refines [] p n (lk D') F S') as B.
    destruct (Nat.eqb _ _); [left; split; eexists; eassumption|].
    destruct (append_conflict _ _ _ _); [left; split; eexists; eassumption|right].
    destruct A as (a1 & a2 & a3 & _), B as (b1 & b2 & b3 & _). split; eexists; split; eassumption.
  - apply (Fin (prepend [] p n) (f_prepend p n F)); [reflexivity|].
    pose proof (prepend_refines [] p n (lk D) F S) as A. pose proof (prepend_refines [] p n (lk D') F S') as B.
    destruct (Nat.eqb _ _); [left; split; eexists; eassumption|].
    destruct (prepend_conflict _ _ _ _); [left; split; eexists; eassumption|right].
    destruct A as (a1 & a2 & a3 & _), B as (b1 & b2 & b3 & _). split; eexists; split; eassumption.
  - apply (Fin (insert_after [] p n) (f_insert_after p n F)); [reflexivity|].
    pose proof (insert_after_refines [] p n (lk D) F S) as A. pose proof (insert_after_refines [] p n (lk D') F S') as B.
    destruct (Nat.eqb _ _); [left; split; eexists; eassumption|].
    destruct (insert_after_conflict _ _ _ _); [left; split; eexists; eassumption|right].
    destruct A as (a1 & a2 & a3 & _), B as (b1 & b2 & b3 & _). split; eexists; split; eassumption.
  - apply (Fin (insert_before [] p n) (f_insert_before p n F)); [reflexivity|].
    pose proof (insert_before_refines [] p n (lk D) F S) as A. pose proof (insert_before_refines [] p n (lk D') F S') as B.
    destruct (Nat.eqb _ _); [left; split; eexists; eassumption|].
    destruct (insert_before_conflict _ _ _ _); [left; split; eexists; eassumption|right].
    destruct A as (a1 & a2 & a3 & _), B as (b1 & b2 & b3 & _). split; eexists; split; eassumption.
Qed.

(* ---- calls that write to one node *)
Lemma modify_sim o n g g' D D' : rel D D' -> legal o D -> step o D = Ok (modify n g D) -> step o D' = Ok (modify n g' D') ->
  sim_node (modify n g D) (modify n g' D') n -> rel (modify n g D) (modify n g' D').
Proof.
  intros R L E E' S. destruct (rel_step o D D' _ _ R L E E') as (r & r'). split; try easy; try apply R.
  intros m _. destruct (Nat.eq_dec m n) as [->|Hm]; [exact S|]. destruct (rl_all D D' R m).
  split; unfold node_type, tag_name, id_of, text_of, attributes, is_detached, storage_key, modify, with_dt in *; cbn [dt] in *;
    rewrite ?(upd_other _ n m) by exact Hm; assumption.
Qed.
Ltac one_node R n := destruct (rl_all _ _ R n);
  split; unfold node_type, tag_name, id_of, text_of, attributes, is_detached, storage_key, modify, with_dt in *; cbn [dt] in *;
  rewrite ?upd_same; cbn; try assumption; try reflexivity.
Lemma set_text_sim n s D D' : rel D D' -> legal (OSetText n s) D -> same_outcome rel (step (OSetText n s) D) (step (OSetText n s) D').
Proof.
  intros R L. cbn [step]. unfold set_text. rewrite (rel_element D D' n R). destruct (is_element D n) eqn:He; [exact Logic.I|].
  cbn [same_outcome]. apply (modify_sim (OSetText n s)); try assumption.
  - cbn [step]. unfold set_text. now rewrite He.
  - cbn [step]. unfold set_text. now rewrite (rel_element D D' n R), He.
  - one_node R n.
Qed.
Lemma text_mut_sim n s D D' : rel D D' -> legal (OTextMut n s) D -> same_outcome rel (step (OTextMut n s) D) (step (OTextMut n s) D').
Proof.
  intros R L. cbn [step same_outcome]. unfold text_mut. apply (modify_sim (OTextMut n s)); try assumption; try reflexivity. one_node R n.
Qed.
Lemma set_id_sim n s D D' : rel D D' -> legal (OSetId n s) D -> same_outcome rel (step (OSetId n s) D) (step (OSetId n s) D').
Proof.
  intros R L. cbn [step]. unfold set_id. rewrite (rel_element D D' n R). destruct (is_element D n) eqn:He; [|exact Logic.I].
  cbn [same_outcome]. apply (modify_sim (OSetId n s)); try assumption.
  - cbn [step]. unfold set_id. now rewrite He.
  - cbn [step]. unfold set_id. now rewrite (rel_element D D' n R), He.
  - one_node R n.
Qed.
Lemma set_tag_sim n t D D' : rel D D' -> legal (OSetTagName n t) D ->
  same_outcome rel (step (OSetTagName n t) D) (step (OSetTagName n t) D').
Proof.
  intros R L. cbn [step]. unfold set_tag_name. rewrite (rel_element D D' n R). destruct (is_element D n) eqn:He; [|exact Logic.I].
  cbn [negb]. destruct (empty_tag t) eqn:Et; [exact Logic.I|].
  cbn [same_outcome]. apply (modify_sim (OSetTagName n t)); try assumption.
  - cbn [step]. unfold set_tag_name. now rewrite He, Et.
  - cbn [step]. unfold set_tag_name. now rewrite (rel_element D D' n R), He, Et.
  - one_node R n.
Qed.
Lemma attribute_mut_sim n x a D D' : rel D D' -> legal (OAttributeMut n x a) D ->
  same_outcome rel (step (OAttributeMut n x a) D) (step (OAttributeMut n x a) D').
Proof.
  intros R L. cbn [step same_outcome]. unfold attribute_mut. apply (modify_sim (OAttributeMut n x a)); try assumption; try reflexivity.
  pose proof (li_uniq D' (reach_linv D' (rl_reach' D D' R)) n) as N. unfold attributes in N.
  one_node R n. apply perm_edit; assumption.
Qed.

(* ---- attributes *)
Lemma attrs_sim D D' D1 D1' : rel D D' -> reachable D1 -> reachable D1' -> same_nodes D D1 -> same_nodes D' D1' ->
  (forall m, Permutation (attributes D1' m) (attributes D1 m)) -> rel D1 D1'.
Proof.
  intros R r r' S S' P. split; try assumption.
  - rewrite (sn_count _ _ S), (sn_count _ _ S'). apply R.
  - rewrite (sn_root _ _ S), (sn_root _ _ S'). apply R.
  - rewrite (sn_links _ _ S), (sn_links _ _ S'). apply R.
  - intros n _. destruct (rl_all D D' R n). split.
    + now rewrite (sn_type _ _ S), (sn_type _ _ S').
    + now rewrite (sn_tag _ _ S), (sn_tag _ _ S').
    + now rewrite (sn_id _ _ S), (sn_id _ _ S').
    + now rewrite (sn_text _ _ S), (sn_text _ _ S').
    + apply P.
    + unfold is_detached in *. now rewrite (sn_key _ _ S), (sn_key _ _ S').
Qed.
Lemma checked_sim n a D D' : rel D D' -> legal (OSetAttributeChecked n a) D ->
  same_outcome (fun r r' => rel (fst r) (fst r') /\ snd r = snd r') (set_attribute_checked n a D) (set_attribute_checked n a D').
Proof.
  intros R L. destruct (is_element D n) eqn:He.
  2: { unfold set_attribute_checked. now rewrite (rel_element D D' n R), He. }
  pose proof (checked_cases D n a (rl_reach D D' R) He) as C.
  pose proof (checked_cases D' n a (rl_reach' D D' R) (eq_trans (rel_element D D' n R) He)) as C'.
  rewrite (rel_refused D D' n a R) in C'. destruct (refused D n a) as [e|].
  - rewrite C, C'. now split.
  - destruct C as (D1 & E & S & A & O), C' as (D1' & E' & S' & A' & O'). rewrite E, E'. split; [|reflexivity]. cbn [fst].
    assert (X : step (OSetAttributeChecked n a) D = Ok D1) by (cbn [step]; now rewrite E).
    assert (X' : step (OSetAttributeChecked n a) D' = Ok D1') by (cbn [step]; now rewrite E').
    destruct (rel_step _ D D' _ _ R L X X') as (r & r'). apply (attrs_sim D D'); try assumption.
    intros m. destruct (Nat.eq_dec m n) as [->|Hm].
    + rewrite A, A'. apply Permutation_app_tail. unfold others. apply perm_filter, (rl_all D D' R n).
    + rewrite (O m Hm), (O' m Hm). apply (rl_all D D' R m).
Qed.
Lemma checked_step_sim n a D D' : rel D D' -> legal (OSetAttributeChecked n a) D ->
  same_outcome rel (step (OSetAttributeChecked n a) D) (step (OSetAttributeChecked n a) D').
Proof.
  intros R L. pose proof (checked_sim n a D D' R L) as C. cbn [step].
  destruct (set_attribute_checked n a D) as [r| |], (set_attribute_checked n a D') as [r'| |]; try contradiction; try exact Logic.I.
  cbn. apply C.
Qed.
Lemma set_attribute_sim n a D D' : rel D D' -> legal (OSetAttribute n a) D ->
  same_outcome rel (set_attribute n a D) (set_attribute n a D').
Proof.
  intros R L. pose proof (checked_sim n a D D' R L) as C. unfold set_attribute.
  destruct (set_attribute_checked n a D) as [[D1 r]| |], (set_attribute_checked n a D') as [[D1' r']| |]; try contradiction; try exact Logic.I.
  destruct C as (C & E). cbn [fst snd bind] in *. subst r'. destruct r; [exact C|exact Logic.I].
Qed.
Lemma if_none_sim n a D D' : rel D D' -> legal (OSetAttributeIfNone n a) D ->
  same_outcome rel (set_attribute_if_none n a D) (set_attribute_if_none n a D').
Proof.
  intros R L. unfold set_attribute_if_none. rewrite (rel_has D D' n _ R). destruct (has_attribute D n (a_name a)); cbn [negb]; [exact R|].
  now apply set_attribute_sim.
Qed.
Lemma remove_attribute_sim n x D D' : rel D D' -> legal (ORemoveAttribute n x) D ->
  same_outcome rel (remove_attribute n x D) (remove_attribute n x D').
Proof.
  intros R L. destruct (remove_cases D n x (rl_reach D D' R)) as (D1 & E & S & A & O).
  destruct (remove_cases D' n x (rl_reach' D D' R)) as (D1' & E' & S' & A' & O'). rewrite E, E'. cbn [same_outcome].
  destruct (rel_step (ORemoveAttribute n x) D D' _ _ R L E E') as (r & r'). apply (attrs_sim D D'); try assumption.
  intros m. destruct (Nat.eq_dec m n) as [->|Hm].
  - rewrite A, A'. unfold others. apply perm_filter, (rl_all D D' R n).
  - rewrite (O m Hm), (O' m Hm). apply (rl_all D D' R m).
Qed.

(* ---- creation *)
Definition both (r r' : nid * dom) : Prop := fst r' = fst r /\ rel (snd r) (snd r').
Lemma new_sim o n n' D D' D1 D1' : rel D D' -> legal o D -> step o D = Ok D1 -> step o D' = Ok D1' ->
  new_node n D D1 -> new_node n' D' D1' ->
  node_type D1' n' = node_type D1 n -> tag_name D1' n' = tag_name D1 n -> text_of D1' n' = text_of D1 n -> n' = n /\ rel D1 D1'.
Proof.
  intros R L E E' N N' h1 h2 h3. destruct (rel_step o D D' _ _ R L E E') as (r & r').
  pose proof (rl_fresh D D' R) as Ef.
  assert (Fr : forall x A A1, new_node x A A1 -> x = fresh A /\ fresh A1 = S (fresh A)).
  { intros x A A1 X. pose proof (nw_before x A A1 X) as b. pose proof (nw_after x A A1 X) as a. unfold exists_node in *.
    pose proof (a x) as a0. pose proof (a (fresh A)) as a1. pose proof (a (fresh A1)) as a2. pose proof (a (S (fresh A))) as a3.
    pose proof (a (pred x)) as a4. lia. }
  destruct (Fr _ _ _ N) as (-> & F1), (Fr _ _ _ N') as (E1 & F1'). rewrite Ef in E1. subst n'. split; [reflexivity|].
  split; try assumption.
  - now rewrite F1, F1', Ef.
  - rewrite (on_root _ _ _ (nw_only _ _ _ N)), (on_root _ _ _ (nw_only _ _ _ N')). apply R.
  - rewrite (on_links_same _ _ _ (nw_only _ _ _ N)), (on_links_same _ _ _ (nw_only _ _ _ N')). apply R.
  - intros m _. destruct (Nat.eq_dec m (fresh D)) as [->|Hm].
    + split; try assumption.
      * now rewrite (nw_id _ _ _ N), (nw_id _ _ _ N').
      * now rewrite (nw_attrs _ _ _ N), (nw_attrs _ _ _ N').
      * now rewrite (nw_in _ _ _ N), (nw_in _ _ _ N').
    + destruct (on_nodes _ _ _ (nw_only _ _ _ N) m Hm) as [a1 a2 a3 a4 a5 a6 a7].
      destruct (on_nodes _ _ _ (nw_only _ _ _ N') m Hm) as [b1 b2 b3 b4 b5 b6 b7]. destruct (rl_all D D' R m) as [c1 c2 c3 c4 c5 c6].
      split; [now rewrite a1, b1|now rewrite a2, b2|now rewrite a3, b3|now rewrite a4, b4|now rewrite a5, b5|now rewrite a7, b7].
Qed.
Lemma create_element_sim t D D' : rel D D' -> same_outcome both (create_element t D) (create_element t D').
Proof.
  intros R. destruct (create_element_api D t (rl_reach D D' R)) as (P & Q). destruct (create_element_api D' t (rl_reach' D D' R)) as (P' & Q').
  assert (X : t = QName [] \/ t <> QName []) by (destruct t as [|[|]]; [right|left|right]; congruence).
  destruct X as [X|X]; [now rewrite (P X), (P' X)|]. destruct (Q X) as (n & D1 & E & N & h1 & h2 & h3), (Q' X) as (n' & D1' & E' & N' & g1 & g2 & g3).
  rewrite E, E'. cbn [same_outcome]. apply (new_sim (OCreateElement t) n n' D D' D1 D1'); try assumption; try congruence.
  - split; [intros ? []|exact Logic.I].
  - cbn [step]. now rewrite E.
  - cbn [step]. now rewrite E'.
Qed.
Lemma create_node_sim ty s D D' : rel D D' -> same_outcome both (create_node ty s D) (create_node ty s D').
Proof.
  intros R. destruct (create_node_api D ty s (rl_reach D D' R)) as (P & Q). destruct (create_node_api D' ty s (rl_reach' D D' R)) as (P' & Q').
  assert (X : (ty = NElement \/ ty = NRoot) \/ ty <> NElement /\ ty <> NRoot) by (destruct ty; [left|left|right|right]; auto; split; congruence).
  destruct X as [X|(X & Y)]; [now rewrite (P X), (P' X)|].
  destruct (Q X Y) as (n & D1 & E & N & h1 & h2 & h3), (Q' X Y) as (n' & D1' & E' & N' & g1 & g2 & g3).
  rewrite E, E'. cbn [same_outcome]. apply (new_sim (OCreateNode ty s) n n' D D' D1 D1'); try assumption; try congruence.
  - split; [intros ? []|exact Logic.I].
  - cbn [step]. now rewrite E.
  - cbn [step]. now rewrite E'.
Qed.

(* ---- removal *)
Lemma remove_sim n D D' : rel D D' -> exists_node D n -> same_outcome rel (remove_node n D) (remove_node n D').
Proof.
  intros R Hn. destruct (rl_forest D D' R) as (F & S & S').
  assert (Hn' : exists_node D' n) by (unfold exists_node; now rewrite (rl_fresh D D' R)).
  destruct (remove_exact D F n (rl_reach D D' R) S Hn) as [(Hf & _)|(Hf & E)];
    destruct (remove_exact D' F n (rl_reach' D D' R) S' Hn') as [(Hf' & _)|(Hf' & E')]; try contradiction.
  - destruct Hf as (t & <- & Ht).
    destruct (reach_remove D F t (rl_reach D D' R) S Ht Hn) as (D1 & E & S1 & V & _).
    destruct (reach_remove D' F t (rl_reach' D D' R) S' Ht Hn') as (D1' & E' & S1' & V' & _). rewrite E, E'. cbn [same_outcome].
    assert (L : legal (ORemoveNode (t_node t)) D) by (split; [intros m [<-|[]]; exact Hn|exact Logic.I]).
    destruct (rel_step (ORemoveNode (t_node t)) D D' _ _ R L E E') as (r & r'). split; try assumption.
    + rewrite (rv_fresh _ _ _ V), (rv_fresh _ _ _ V'). apply R.
    + rewrite (rv_root _ _ _ V), (rv_root _ _ _ V'). apply R.
    + eexists. split; eassumption.
    + intros m _. destruct (rl_all D D' R m). split.
      * now rewrite (rv_type _ _ _ V), (rv_type _ _ _ V').
      * now rewrite (rv_tag _ _ _ V), (rv_tag _ _ _ V').
      * now rewrite (rv_id _ _ _ V), (rv_id _ _ _ V').
      * now rewrite (rv_text _ _ _ V), (rv_text _ _ _ V').
      * rewrite (rv_attrs _ _ _ V), (rv_attrs _ _ _ V'). now apply perm_filter.
      * unfold is_detached in *. rewrite (rv_key _ _ _ V), (rv_key _ _ _ V'). destruct (mem m (preorder t)); [reflexivity|assumption].
  - unfold remove_node. rewrite E, E'. exact Logic.I.
Qed.
Lemma rel_nav D D' : rel D D' -> forall n, parent (lk D') n = parent (lk D) n /\ first_child (lk D') n = first_child (lk D) n /\
  last_child (lk D') n = last_child (lk D) n /\ next_sibling (lk D') n = next_sibling (lk D) n /\
  previous_sibling (lk D') n = previous_sibling (lk D) n.
Proof.
  intros R. destruct (rl_forest D D' R) as (F & S & S'). apply (navigation_back D D' F F S S'). split; [|split]; reflexivity.
Qed.
Lemma drain_loop_sim f : (forall D D', reachable D -> reachable D' -> akin D D' -> forall x, exists_node D x -> f D' x = f D x) ->
  forall fuel node s s', rel (fst s) (fst s') -> snd s' = snd s -> (forall n, node = Some n -> exists_node (fst s) n) ->
  same_outcome (fun r r' => rel (fst r) (fst r') /\ snd r' = snd r) (drain_loop fuel f node s) (drain_loop fuel f node s').
Proof.
  intros Hf. induction fuel as [|fl IH]; intros node s s' R Es Hx; [exact Logic.I|]. cbn [drain_loop].
  destruct node as [n|]; [|now split]. specialize (Hx n eq_refl). cbv zeta.
  destruct (rel_nav _ _ R n) as (_ & e1 & _ & e2 & _).
  rewrite (Hf _ _ (rl_reach _ _ R) (rl_reach' _ _ R) (rel_akin _ _ R) n Hx). destruct (f (fst s) n).
  - rewrite e2. pose proof (remove_sim n (fst s) (fst s') R Hx) as C.
    destruct (remove_node n (fst s)) as [D1| |] eqn:E1, (remove_node n (fst s')) as [D1'| |]; try contradiction; try exact Logic.I. cbn [bind].
    apply IH; cbn [fst snd]; [exact C|now rewrite Es|]. intros m Hm.
    destruct (removal (fst s) n D1 (rl_reach _ _ R) Hx E1) as (_ & Hle). apply (next_exists (fst s) n (rl_reach _ _ R)) in Hm.
    unfold exists_node in *. lia.
  - unfold has_children. rewrite e1.
    assert (C : same_outcome (fun r r' => rel (fst r) (fst r') /\ snd r' = snd r)
      (if match first_child (lk (fst s)) n with Some _ => true | None => false end
       then drain_loop fl f (first_child (lk (fst s)) n) s else Ok s)
      (if match first_child (lk (fst s)) n with Some _ => true | None => false end
       then drain_loop fl f (first_child (lk (fst s)) n) s' else Ok s')).
    { destruct (first_child (lk (fst s)) n) as [c|] eqn:Ec; [|now split]. apply IH; try assumption.
      intros m [= <-]. exact (first_exists (fst s) n (rl_reach _ _ R) c Ec). }
    match goal with |- same_outcome _ (bind ?x _) (bind ?y _) => destruct x as [u| |], y as [v| |]; try contradiction; try exact Logic.I end.
    cbn [bind]. destruct C as (Ru & Eu). destruct (rel_nav _ _ Ru n) as (_ & _ & _ & e & _). rewrite e. apply IH; try assumption.
    intros m Hm. exact (next_exists (fst u) n (rl_reach _ _ Ru) m Hm).
Qed.
Lemma drain_sim root f D D' : rel D D' -> fair (ODrain root f) ->
  same_outcome (fun r r' => rel (fst r) (fst r') /\ snd r' = snd r) (drain root f D) (drain root f D').
Proof.
  intros R Hf. unfold drain, enough. rewrite (rl_fresh _ _ R). destruct (rel_nav _ _ R root) as (_ & e & _). rewrite e.
  apply (drain_loop_sim f Hf); [exact R|reflexivity|]. intros n Hn. exact (first_exists D root (rl_reach _ _ R) n Hn).
Qed.

(* ---- copies *)
Lemma copyable_sim n D D' : rel D D' -> copyable D n <-> copyable D' n.
Proof.
  intros R. unfold copyable, targets_named. destruct (rl_all _ _ R n) as [h1 _ _ _ h2 _]. rewrite h1.
  split; intros (H1 & H2); (split; [exact H1|]); intros a t Ha Ht.
  - rewrite (si_id _ _ _ (rl_all _ _ R t)). apply (H2 a t); [|exact Ht]. now apply (Permutation_in a h2).
  - rewrite <- (si_id _ _ _ (rl_all _ _ R t)). apply (H2 a t); [|exact Ht]. now apply (Permutation_in a (Permutation_sym h2)).
Qed.
Lemma copyable_dec D n : copyable D n \/ ~ copyable D n.
Proof.
  unfold copyable, targets_named. destruct (node_type D n) eqn:E; [right; intros (H & _); now apply H|..].
  all: assert (X : (forall a t, In a (attributes D n) -> link_target (a_value a) = Some t -> id_of D t <> []) \/
         ~ (forall a t, In a (attributes D n) -> link_target (a_value a) = Some t -> id_of D t <> [])).
  1,3,5: induction (attributes D n) as [|a l IH]; [left; intros ? ? []|].
  1,2,3: destruct IH as [IH|IH]; [|right; intros H; apply IH; intros b t Hb; apply H; now right].
  1,2,3: destruct (link_target (a_value a)) as [t|] eqn:Et.
  1,3,5: destruct (id_of D t) as [|c s] eqn:Ei;
    [right; intros H; exact (H a t (or_introl eq_refl) Et Ei)
    |left; intros b u [<-|Hb] Hu; [rewrite Et in Hu; injection Hu as <-; rewrite Ei; discriminate|now apply (IH b u)]].
  1,2,3: left; intros b u [<-|Hb] Hu; [congruence|now apply (IH b u)].
  all: destruct X as [X|X]; [left; split; [discriminate|exact X]|right; intros (_ & H); now apply X].
Qed.
Lemma copy_sim n D D' : rel D D' -> exists_node D n -> same_outcome both (copy_node n D) (copy_node n D').
Proof.
  intros R Hn. assert (Hn' : exists_node D' n) by (unfold exists_node; now rewrite (rl_fresh D D' R)).
  destruct (copyable_dec D n) as [C|C].
  - destruct (copy_api D n (rl_reach _ _ R) Hn C) as (D1 & E & X & Y & _).
    destruct (copy_api D' n (rl_reach' _ _ R) Hn' (proj1 (copyable_sim n D D' R) C)) as (D1' & E' & X' & Y' & _).
    rewrite E, E'. cbn [same_outcome]. split; [exact (rl_fresh _ _ R)|]. cbn [snd]. rewrite (rl_fresh _ _ R) in X', Y'.
    assert (L : legal (OCopyNode n) D) by (split; [intros m [<-|[]]; exact Hn|exact Logic.I]).
    assert (Z : step (OCopyNode n) D = Ok D1) by (cbn [step]; now rewrite E).
    assert (Z' : step (OCopyNode n) D' = Ok D1') by (cbn [step]; now rewrite E').
    destruct (rel_step (OCopyNode n) D D' _ _ R L Z Z') as (r & r'). split; try assumption.
    + rewrite (ce_fresh _ _ _ _ Y), (ce_fresh _ _ _ _ Y'). now rewrite (rl_fresh _ _ R).
    + rewrite (ce_root _ _ _ _ Y), (ce_root _ _ _ _ Y'). apply R.
    + rewrite (ce_links _ _ _ _ Y), (ce_links _ _ _ _ Y'). apply R.
    + intros m Hm. unfold exists_node in Hm. rewrite (ce_fresh _ _ _ _ Y) in Hm. destruct (Nat.eq_dec m (fresh D)) as [->|Hne].
      * destruct (rl_all _ _ R n) as [c1 c2 c3 c4 c5 c6]. split.
        -- now rewrite (co_type _ _ _ _ X), (co_type _ _ _ _ X').
        -- now rewrite (co_tag _ _ _ _ X), (co_tag _ _ _ _ X').
        -- now rewrite (co_id _ _ _ _ X), (co_id _ _ _ _ X').
        -- now rewrite (co_text _ _ _ _ X), (co_text _ _ _ _ X'), c1, c4.
        -- now rewrite (co_attrs _ _ _ _ X), (co_attrs _ _ _ _ X').
        -- pose proof (co_key _ _ _ _ X) as k. pose proof (co_key _ _ _ _ X') as k'. unfold is_detached.
           destruct (storage_key D1 (fresh D)), (storage_key D1' (fresh D)); congruence.
      * assert (Hm1 : exists_node D m) by (unfold exists_node; lia).
        assert (Hm2 : exists_node D' m) by (unfold exists_node; rewrite (rl_fresh _ _ R); lia).
        destruct (rl_all _ _ R m) as [c1 c2 c3 c4 c5 c6]. split.
        -- now rewrite (ce_type _ _ _ _ Y m Hm1), (ce_type _ _ _ _ Y' m Hm2).
        -- now rewrite (ce_tag _ _ _ _ Y m Hm1), (ce_tag _ _ _ _ Y' m Hm2).
        -- now rewrite (ce_id _ _ _ _ Y m Hm1), (ce_id _ _ _ _ Y' m Hm2).
        -- now rewrite (ce_text _ _ _ _ Y m Hm1), (ce_text _ _ _ _ Y' m Hm2).
        -- now rewrite (ce_attr _ _ _ _ Y m Hm1), (ce_attr _ _ _ _ Y' m Hm2).
        -- unfold is_detached in *. now rewrite (ce_key _ _ _ _ Y m Hm1), (ce_key _ _ _ _ Y' m Hm2).
  - destruct (copy_fails_api D n (rl_reach _ _ R) Hn C) as (k & E).
    destruct (copy_fails_api D' n (rl_reach' _ _ R) Hn') as (k' & E'); [intros C'; apply C; now apply (copyable_sim n D D' R)|].
    now rewrite E, E'.
Qed.
Lemma copy_new n D r : copy_node n D = Ok r -> fst r = fresh D /\ fresh (snd r) = S (fresh D).
Proof.
  unfold copy_node. intros H. destruct (node_type D n).
  2: { ok_bind H r1 E1. ok_bind H D1 E2. injection H as <-. apply create_element_keeps in E1. apply copy_attrs_keeps in E2.
       cbn [fst snd]. destruct E1 as (a1 & a2 & a3). split; [exact a1|]. destruct E2 as (b1 & b2). congruence. }
  all: apply create_node_keeps in H; tauto.
Qed.

Definition more (D : dom) (r r' : dom) : Prop := rel r r' /\ fresh D <= fresh r.
Lemma children_sim K (body : nid -> dom -> res dom) :
  (forall c D D', rel D D' -> K <= fresh D -> exists_node D c -> same_outcome (more D) (body c D) (body c D')) ->
  forall fuel it D D', rel D D' -> K <= fresh D -> (forall c, c_next it = Some c -> exists_node D c) ->
  same_outcome (more D) (for_children lk fuel body it D) (for_children lk fuel body it D').
Proof.
  intros Hb. induction fuel as [|fl IH]; intros it D D' R HK Hx; [exact Logic.I|]. cbn [for_children].
  assert (En : children_next (lk D') it = children_next (lk D) it).
  { unfold children_next, children_finished. destruct (c_back it) as [b|].
    - destruct (rel_nav _ _ R b) as (_ & _ & _ & e & _). rewrite e. destruct (onid_eqb _ _); [reflexivity|].
      destruct (c_next it) as [x|]; [|reflexivity]. destruct (rel_nav _ _ R x) as (_ & _ & _ & e' & _). now rewrite e'.
    - reflexivity. }
  rewrite En. unfold children_next. destruct (children_finished (lk D) it); [split; [exact R|apply le_n]|].
  destruct (c_next it) as [c|] eqn:Ec; [|split; [exact R|apply le_n]].
  pose proof (Hb c D D' R HK (Hx c eq_refl)) as C.
  destruct (body c D) as [D1| |], (body c D') as [D1'| |]; try contradiction; try exact Logic.I. cbn [bind].
  destruct C as (R1 & Hle).
  assert (G : same_outcome (more D1) (for_children lk fl body (mkChildren (next_sibling (lk D) c) (c_back it)) D1)
                 (for_children lk fl body (mkChildren (next_sibling (lk D) c) (c_back it)) D1')).
  { apply IH; [exact R1|lia|]. cbn [c_next]. intros x Hc. apply (next_exists D c (rl_reach _ _ R)) in Hc. unfold exists_node in *. lia. }
  destruct (for_children lk fl body _ D1), (for_children lk fl body _ D1'); try contradiction; try exact Logic.I.
  destruct G as (G1 & G2). split; [exact G1|lia].
Qed.
Lemma deep_loop_sim : forall fuel p n D D', rel D D' -> exists_node D p -> same_outcome (more D) (make_deep_copy fuel p n D) (make_deep_copy fuel p n D').
Proof.
  induction fuel as [|fl IH]; intros p n D D' R Hp; [exact Logic.I|]. cbn [make_deep_copy].
  assert (Ec : children (lk D') n = children (lk D) n).
  { unfold children. destruct (rel_nav _ _ R n) as (_ & e1 & e2 & _). now rewrite e1, e2. }
  rewrite Ec.
  apply (children_sim (fresh D)); [|exact R|apply le_n|].
  2: { cbn [children c_next]. intros c Hc. exact (first_exists D n (rl_reach _ _ R) c Hc). }
  clear Ec. intros c E E' RE HK Hc. pose proof (copy_sim c E E' RE Hc) as C.
  destruct (copy_node c E) as [r| |] eqn:E1, (copy_node c E') as [r'| |]; try contradiction; try exact Logic.I. cbn [bind].
  destruct C as (Cf & C). apply copy_new in E1. destruct E1 as (e1 & e2). rewrite Cf.
  assert (L : legal (OAppend p (fst r)) (snd r)).
  { split; [|exact Logic.I]. unfold exists_node in *. intros m [<-|[<-|[]]]; lia. }
  pose proof (move_sim (OAppend p (fst r)) (snd r) (snd r') C L Logic.I) as M. cbn [step] in M. unfold on_links in M.
  destruct (append [] p (fst r) (lk (snd r))) as [L1| |], (append [] p (fst r) (lk (snd r'))) as [L1'| |]; try contradiction; try exact Logic.I.
  cbn [bind same_outcome] in M |- *. cbv zeta. unfold has_children. destruct (rel_nav _ _ M c) as (_ & e & _). rewrite e.
  assert (Hle : fresh E <= fresh (with_lk L1 (snd r))) by (cbn [with_lk fresh]; lia).
  destruct (first_child (lk (with_lk L1 (snd r))) c); [|split; assumption].
  assert (X : exists_node (with_lk L1 (snd r)) (fst r)) by (unfold exists_node; cbn [with_lk fresh]; lia).
  pose proof (IH (fst r) c _ _ M X) as G.
  destruct (make_deep_copy fl (fst r) c (with_lk L1 (snd r))), (make_deep_copy fl (fst r) c (with_lk L1' (snd r')));
    try contradiction; try exact Logic.I.
  destruct G as (G1 & G2). split; [exact G1|]. exact (Nat.le_trans _ _ _ Hle G2).
Qed.
Lemma deep_sim n D D' : rel D D' -> exists_node D n -> same_outcome both (copy_node_deep n D) (copy_node_deep n D').
Proof.
  intros R Hn. unfold copy_node_deep, enough. rewrite (rl_fresh _ _ R). cbv zeta. pose proof (copy_sim n D D' R Hn) as C.
  destruct (copy_node n D) as [r| |] eqn:E1, (copy_node n D') as [r'| |]; try contradiction; try exact Logic.I. cbn [bind].
  destruct C as (Cf & C). rewrite Cf. apply copy_new in E1. destruct E1 as (e1 & e2).
  assert (X : exists_node (snd r) (fst r)) by (unfold exists_node; lia).
  pose proof (deep_loop_sim (S (S (fresh D))) (fst r) n _ _ C X) as G.
  destruct (make_deep_copy _ _ _ (snd r)), (make_deep_copy _ _ _ (snd r')); try contradiction; try exact Logic.I.
  cbn [bind same_outcome]. split; [reflexivity|apply G].
Qed.

(* ---- all calls *)
Lemma outcome_map {A B} (f : A -> B) (Q : A -> A -> Prop) (R : B -> B -> Prop) x y :
  (forall a b, Q a b -> R (f a) (f b)) -> same_outcome Q x y -> same_outcome R (a <- x ;; Ok (f a)) (a <- y ;; Ok (f a)).
Proof. intros H. destruct x, y; try contradiction; try easy. apply H. Qed.
Lemma outcome_mono {A} (Q R : A -> A -> Prop) x y : (forall a b, Q a b -> R a b) -> same_outcome Q x y -> same_outcome R x y.
Proof. intros H. destruct x, y; try contradiction; try easy. apply H. Qed.
Lemma step_sim o D D' : rel D D' -> legal o D -> fair o -> same_outcome rel (step o D) (step o D').
Proof.
  intros R L Hf.
  assert (One : forall n, In n (handles o) -> exists_node D n) by apply L.
  destruct o.
  all: try (now apply move_sim).
  - cbn [step]. eapply outcome_map; [|now apply create_element_sim]. intros a b H. apply H.
  - cbn [step]. eapply outcome_map; [|now apply create_node_sim]. intros a b H. apply H.
  - apply remove_sim; [exact R|]. apply One. now left.
  - cbn [step]. eapply outcome_map; [|now apply drain_sim]. intros a b H. apply H.
  - cbn [step]. eapply outcome_map; [|apply copy_sim; [exact R|apply One; now left]]. intros a b H. apply H.
  - cbn [step]. eapply outcome_map; [|apply deep_sim; [exact R|apply One; now left]]. intros a b H. apply H.
  - now apply set_text_sim.
  - now apply text_mut_sim.
  - now apply set_id_sim.
  - now apply set_tag_sim.
  - now apply set_attribute_sim.
  - now apply checked_step_sim.
  - now apply if_none_sim.
  - now apply remove_attribute_sim.
  - now apply attribute_mut_sim.
Qed.

Lemma step_api o D D' : reachable D -> reachable D' -> akin D D' -> legal o D -> fair o ->
  legal o D' /\ same_outcome akin (step o D) (step o D').
Proof.
  intros H H' A L Hf. pose proof (akin_rel D D' H H' A) as R. split; [exact (rel_legal o D D' R L)|].
  apply (outcome_mono rel); [exact rel_akin|]. now apply step_sim.
Qed.
Lemma history_api l : forall D D' D1, reachable D -> reachable D' -> akin D D' -> Forall fair l -> calls l D D1 ->
  exists D1', calls l D' D1' /\ akin D1 D1'.
Proof.
  intros D D' D1 H H' A Hf C. revert D' H' A. induction C as [D|o l D E D1 L Es C IH]; intros D' H' A.
  - exists D'. split; [constructor|exact A].
  - inversion Hf as [|? ? Ho Hl]; subst. destruct (step_api o D D' H H' A L Ho) as (L' & S). rewrite Es in S.
    destruct (step o D') as [E'| |] eqn:Es'; try contradiction.
    destruct (IH (reach_step D o E H L Es) Hl E' (reach_step D' o E' H' L' Es') S) as (D1' & C' & A').
    exists D1'. split; [|exact A']. econstructor; eassumption.
Qed.
Lemma results_api D D' : reachable D -> reachable D' -> akin D D' -> forall n, exists_node D n ->
  (forall a, (forall t, link_target (a_value a) = Some t -> exists_node D t) ->
     same_outcome (fun r r' => snd r' = snd r) (set_attribute_checked n a D) (set_attribute_checked n a D')) /\
  same_outcome (fun r r' => fst r' = fst r) (copy_node n D) (copy_node n D') /\
  same_outcome (fun r r' => fst r' = fst r) (copy_node_deep n D) (copy_node_deep n D') /\
  (forall f, fair (ODrain n f) -> same_outcome (fun r r' => snd r' = snd r) (drain n f D) (drain n f D')) /\
  (forall x, has_attribute D' n x = has_attribute D n x /\ attrs_get (attributes D' n) x = attrs_get (attributes D n) x) /\
  is_used D' n = is_used D n /\ uses_count D' n = uses_count D n.
Proof.
  intros H H' A n Hn. pose proof (akin_rel D D' H H' A) as R. split; [|split; [|split; [|split; [|split]]]].
  - intros a Ha. eapply outcome_mono; [|apply checked_sim; [exact R|]]; [intros r r' X; symmetry; apply X|].
    split; [|exact Logic.I]. cbn [handles]. intros m [<-|Hm]; [exact Hn|]. destruct (link_target (a_value a)) as [t|]; [|destruct Hm].
    destruct Hm as [<-|[]]. now apply Ha.
  - eapply outcome_mono; [|now apply copy_sim]. intros r r' X. apply X.
  - eapply outcome_mono; [|now apply deep_sim]. intros r r' X. apply X.
  - intros f Hf. eapply outcome_mono; [|now apply drain_sim]. intros r r' X. apply X.
  - intros x. split; [now apply rel_has|now apply rel_get].
  - pose proof (rel_users D D' R n) as P. unfold is_used, uses_count. split.
    + apply Permutation_length in P. destruct (linked_nodes D' n), (linked_nodes D n); easy.
    + now apply Permutation_length.
Qed.
Lemma before_akin D D' : as_before D D' -> (forall n, exists_node D' n <-> exists_node D n) -> akin D D'.
Proof.
  intros B E. split; try apply B; try exact E. intros n Hn. now rewrite (ab_attrs D D' B n Hn).
Qed.
