(* Concrete text documents for the examples beside the theorems. *)
From Coq Require Import String List Bool PeanoNat NArith.
From Verif Require Import Base Ids Links Tree ForestSpec TreeSpec ForestFacts Data Attrs Slab NodeApi Doc History
  DocSpec Replay InvProofs HistoryProofs TreeApi ApiProofs DocApi Samples Text TextSpec.
Import ListNotations.
Open Scope string_scope.
Open Scope nat_scope.
Open Scope list_scope.

(* The conditions of [textual], checked node by node. *)
Definition textual_b (D : dom) : bool :=
  match parent (lk D) (droot D) with Some _ => false | None => true end &&
  forallb (fun n =>
    match parent (lk D) n with Some p => is_element D p || Nat.eqb p (droot D) | None => true end &&
    match attrs_get_value (attributes D n) (QId A_Space) with Some (VString _) | None => true | _ => false end)
    (seq 0 (fresh D)).
Lemma textual_b_ok D F : reachable D -> shows (lk D) F -> textual_b D = true -> textual D F.
Proof.
  intros H S T. pose proof (shows_inv D F H S) as I. apply andb_true_iff in T. destruct T as (T1 & T2).
  rewrite forallb_forall in T2.
  assert (Hin : forall n, n < fresh D -> In n (seq 0 (fresh D))).
  { intros n Hn. apply in_seq. split; [apply Nat.le_0_l|exact Hn]. }
  split.
  - intros n p Hp. destruct (Nat.lt_ge_cases n (fresh D)) as [Hn|Hn].
    + specialize (T2 n (Hin n Hn)). apply andb_true_iff in T2. destruct T2 as (T2 & _).
      rewrite (sh_parent _ _ S), Hp in T2. apply orb_true_iff in T2. destruct T2 as [T2|T2]; [now left|right].
      now apply Nat.eqb_eq.
    + destruct (iv_iso D F I n Hn) as (E & _). congruence.
  - rewrite <- (sh_parent _ _ S). now destruct (parent (lk D) (droot D)).
  - intros n v Hv. destruct (Nat.lt_ge_cases n (fresh D)) as [Hn|Hn].
    + specialize (T2 n (Hin n Hn)). apply andb_true_iff in T2. destruct T2 as (_ & T2). rewrite Hv in T2.
      destruct v; try discriminate. eauto.
    + unfold attributes in Hv. rewrite (iv_blank D F I n Hn) in Hv. discriminate.
Qed.

(* A forest for a sample. *)
Lemma sample_forest D : reachable_tame D -> textual_b D = true -> exists F, shows (lk D) F /\ textual D F.
Proof.
  intros H T. destruct (reachable_shows D (tame_reachable D H)) as (F & S). exists F. split; [exact S|].
  exact (textual_b_ok D F (tame_reachable D H) S T).
Qed.

Definition space (s : string) : attr := mkAttr (QId A_Space) (VString (lit s)).

(* <svg><text>  a / b <tspan>  c </tspan> d </text></svg> (/ is a line feed)
   0 root, 1 svg, 2 text, 3 "  a / b ", 4 tspan, 5 "  c ", 6 " d " *)
Definition tdoc_ops (s3 s5 s6 : str) (m : string) : list op :=
  [ OCreateElement (QId E_Svg); OAppend 0 1;
    OCreateElement (QId E_Text); OAppend 1 2;
    OCreateNode NText s3; OAppend 2 3;
    OCreateElement (QId E_Tspan); OAppend 2 4;
    OCreateNode NText s5; OAppend 4 5;
    OCreateNode NText s6; OAppend 2 6;
    OSetAttribute 4 (space m) ].
Definition broken : str := [32; 32; 97; 10; 98; 32]%N.
Definition joined : dom := get (run all_check (tdoc_ops broken (lit "  c ") (lit " d ") "default")).
Lemma joined_tame : reachable_tame joined.
Proof. apply sample_tame. vm_compute. reflexivity. Qed.
Lemma joined_leafy : reachable_leafy joined.
Proof. apply sample_leafy. vm_compute. reflexivity. Qed.

(* The same with xml:space="preserve" on the tspan. *)
Definition mixed : dom := get (run all_check (tdoc_ops broken (lit "  c ") (lit " d ") "preserve")).
Lemma mixed_tame : reachable_tame mixed.
Proof. apply sample_tame. vm_compute. reflexivity. Qed.

(* <svg><text>..</text></svg>: 0 root, 1 svg, 2 text, 3 the text *)
Definition one_ops (s : str) (m : string) : list op :=
  [ OCreateElement (QId E_Svg); OAppend 0 1;
    OCreateElement (QId E_Text); OAppend 1 2;
    OCreateNode NText s; OAppend 2 3; OSetAttribute 1 (space m) ].
Definition one_default : dom := get (run all_check (one_ops broken "default")).
Lemma one_default_tame : reachable_tame one_default.
Proof. apply sample_tame. vm_compute. reflexivity. Qed.
Definition one_preserve : dom := get (run all_check (one_ops broken "preserve")).
Lemma one_preserve_tame : reachable_tame one_preserve.
Proof. apply sample_tame. vm_compute. reflexivity. Qed.

(* <text> a<tspan>b </tspan></text>: 0 root, 1 svg, 2 text, 3 " a", 4 tspan, 5 "b " *)
Definition both_ops (s3 s5 : str) : list op :=
  [ OCreateElement (QId E_Svg); OAppend 0 1;
    OCreateElement (QId E_Text); OAppend 1 2;
    OCreateNode NText s3; OAppend 2 3;
    OCreateElement (QId E_Tspan); OAppend 2 4;
    OCreateNode NText s5; OAppend 4 5 ].
Definition both : dom := get (run all_check (both_ops (lit " a") (lit "b "))).
Lemma both_tame : reachable_tame both.
Proof. apply sample_tame. vm_compute. reflexivity. Qed.

(* <text>/<tspan> a </tspan> /<tspan>b</tspan>/</text>: 0 root, 1 svg, 2 text, 3 "/", 4 tspan, 5 " a ", 6 " /",
   7 tspan, 8 "b", 9 "/" *)
Definition pretty_ops : list op :=
  [ OCreateElement (QId E_Svg); OAppend 0 1;
    OCreateElement (QId E_Text); OAppend 1 2;
    OCreateNode NText [10]%N; OAppend 2 3;
    OCreateElement (QId E_Tspan); OAppend 2 4;
    OCreateNode NText (lit " a "); OAppend 4 5;
    OCreateNode NText [32; 10]%N; OAppend 2 6;
    OCreateElement (QId E_Tspan); OAppend 2 7;
    OCreateNode NText (lit "b"); OAppend 7 8;
    OCreateNode NText [10]%N; OAppend 2 9 ].
Definition pretty : dom := get (run all_check pretty_ops).
Lemma pretty_tame : reachable_tame pretty.
Proof. apply sample_tame. vm_compute. reflexivity. Qed.

(* <text> <!--c--> b</text>: 0 root, 1 svg, 2 text, 3 " ", 4 comment, 5 " b" *)
Definition kept_ops : list op :=
  [ OCreateElement (QId E_Svg); OAppend 0 1;
    OCreateElement (QId E_Text); OAppend 1 2;
    OCreateNode NText (lit " "); OAppend 2 3;
    OCreateNode NComment (lit "c"); OAppend 2 4;
    OCreateNode NText (lit " b"); OAppend 2 5 ].
Definition kept_lead : dom := get (run all_check kept_ops).
Lemma kept_lead_tame : reachable_tame kept_lead.
Proof. apply sample_tame. vm_compute. reflexivity. Qed.

(* <text><tspan>a</tspan>b/</text>: 0 root, 1 svg, 2 text, 3 tspan, 4 "a", 5 "b/" *)
Definition late_ops : list op :=
  [ OCreateElement (QId E_Svg); OAppend 0 1;
    OCreateElement (QId E_Text); OAppend 1 2;
    OCreateElement (QId E_Tspan); OAppend 2 3;
    OCreateNode NText (lit "a"); OAppend 3 4;
    OCreateNode NText [98; 10]%N; OAppend 2 5 ].
Definition late : dom := get (run all_check late_ops).
Lemma late_tame : reachable_tame late.
Proof. apply sample_tame. vm_compute. reflexivity. Qed.

(* <text>a<tspan xml:space="preserve"><tspan>b  c</tspan></tspan></text>:
   0 root, 1 svg, 2 text, 3 "a", 4 tspan, 5 tspan, 6 "b  c" *)
Definition nested_ops : list op :=
  [ OCreateElement (QId E_Svg); OAppend 0 1;
    OCreateElement (QId E_Text); OAppend 1 2;
    OCreateNode NText (lit "a"); OAppend 2 3;
    OCreateElement (QId E_Tspan); OAppend 2 4;
    OCreateElement (QId E_Tspan); OAppend 4 5;
    OCreateNode NText (lit "b  c"); OAppend 5 6;
    OSetAttribute 4 (space "preserve") ].
Definition nested : dom := get (run all_check nested_ops).
Lemma nested_tame : reachable_tame nested.
Proof. apply sample_tame. vm_compute. reflexivity. Qed.

(* <text>a<tspan xml:space="preserve">b </tspan><tspan> </tspan></text>: as [tdoc_ops], but the last text is
   blank. *)
Definition cut_off : dom := get (run all_check (tdoc_ops (lit "a") (lit "b ") (lit " ") "preserve")).
Lemma cut_off_tame : reachable_tame cut_off.
Proof. apply sample_tame. vm_compute. reflexivity. Qed.

(* Finding text roots and modes in a sample. *)
Lemma anc_step D F a n p : shows (lk D) F -> parent (lk D) n = Some p -> anc_or_self F a p -> anc_or_self F a n.
Proof. intros S E H. apply (aos_up F a n p); [|exact H]. now rewrite <- (sh_parent _ _ S). Qed.
Lemma anc_top D F a n : shows (lk D) F -> parent (lk D) n = None -> anc_or_self F a n -> a = n.
Proof. intros S E H. inversion H as [|? ? p Hp]; [reflexivity|]. subst. rewrite <- (sh_parent _ _ S), E in Hp. discriminate. Qed.
Lemma anc_up D F a n p : shows (lk D) F -> parent (lk D) n = Some p -> anc_or_self F a n -> a = n \/ anc_or_self F a p.
Proof.
  intros S E H. inversion H as [|? ? q Hq Ha]; subst; [now left|]. right. rewrite <- (sh_parent _ _ S), E in Hq.
  now injection Hq as ->.
Qed.
Lemma no_open D F e : shows (lk D) F -> 
  match first_child (lk D) e with Some c => is_element D e && is_text D c | None => false end = false -> ~ opens_with_text D F e.
Proof.
  intros S E (H1 & c & H2 & H3). rewrite (sh_first _ _ S), H2, H1, H3 in E. discriminate.
Qed.
Lemma opened D F e c : shows (lk D) F -> is_element D e = true -> first_child (lk D) e = Some c -> is_text D c = true ->
  opens_with_text D F e.
Proof. intros S E H1 H2. split; [exact E|]. exists c. now rewrite <- (sh_first _ _ S). Qed.
Lemma mode_own D F n m : own_space D n = Some m -> space_mode D F n m.
Proof. apply sm_own. Qed.
Lemma mode_up D F n p m : shows (lk D) F -> own_space D n = None -> parent (lk D) n = Some p -> space_mode D F p m ->
  space_mode D F n m.
Proof. intros S E H. apply sm_up; [exact E|]. now rewrite <- (sh_parent _ _ S). Qed.
Lemma mode_top D F n : shows (lk D) F -> own_space D n = None -> parent (lk D) n = None -> space_mode D F n Default.
Proof. intros S E H. apply sm_top; [exact E|]. now rewrite <- (sh_parent _ _ S). Qed.

(* In every sample 2 is the text element, below 1 and 0. *)
Lemma text_root_2 D F n : shows (lk D) F -> droot D = 0 -> parent (lk D) 2 = Some 1 -> parent (lk D) 1 = Some 0 ->
  parent (lk D) 0 = None -> is_element D 2 = true -> first_child (lk D) 2 = Some 3 -> is_text D 3 = true ->
  first_child (lk D) 1 = Some 2 -> is_text D 2 = false -> first_child (lk D) 0 = Some 1 -> is_text D 1 = false ->
  anc_or_self F 2 n -> n <> 2 -> text_root D F 2 n.
Proof.
  intros S E0 E1 E2 E3 E4 E5 E6 E7 E8 E9 E10 Ha Hn.
  split; [now apply (opened D F 2 3)|]. split; [exact Ha|]. split; [congruence|]. split.
  - rewrite E0. apply (anc_step D F 0 2 1 S E1), (anc_step D F 0 1 0 S E2). constructor.
  - intros a H1 H2. apply (anc_up D F a 2 1 S E1) in H1. destruct H1 as [H1|H1]; [easy|].
    apply (anc_up D F a 1 0 S E2) in H1. destruct H1 as [->|H1].
    + apply (no_open D F 1 S). rewrite E7, E8. apply andb_false_r.
    + apply (anc_top D F a 0 S E3) in H1. subst a. apply (no_open D F 0 S). rewrite E9, E10. apply andb_false_r.
Qed.

(* Checking the tree below a node. *)
Fixpoint chain_b (L : links) (l : list nid) (s : option nid) : bool :=
  match l, s with
  | [], None => true
  | x :: l', Some y => Nat.eqb x y && chain_b L l' (next_sibling L x)
  | _, _ => false
  end.
Fixpoint tree_b (L : links) (t : tree) : bool :=
  match t with T n ts => chain_b L (map t_node ts) (first_child L n) && forallb (tree_b L) ts end.
Lemma chain_b_ok D F n : shows (lk D) F -> forall l l1 l2, children_of F n = l1 ++ l2 ->
  chain_b (lk D) l (hd_error l2) = true -> l = l2.
Proof.
  intros S. induction l as [|x l IH]; intros l1 l2 E H; destruct l2 as [|y l2]; try discriminate; [reflexivity|].
  cbn [chain_b hd_error] in H. apply andb_true_iff in H. destruct H as (H1 & H2). apply Nat.eqb_eq in H1. subst y.
  f_equal. apply (IH (l1 ++ [x])); [now rewrite <- app_assoc|].
  assert (Hx : In x (children_of F n)) by (rewrite E; apply in_app_iff; right; now left).
  pose proof (wf_child F (sh_wf _ _ S) _ _ Hx) as Hp. pose proof (wf_parent F (sh_wf _ _ S) _ _ Hp) as Es.
  rewrite (sh_next _ _ S), Es, E in H2. rewrite <- H2. f_equal.
  pose proof (wf_nodup F (sh_wf _ _ S) x) as Hnd. rewrite Es, E in Hnd.
  symmetry. rewrite ListFacts.succ_in_app_r.
  - cbn [succ_in]. now rewrite Nat.eqb_refl.
  - intros H. apply NoDup_remove_2 in Hnd. apply Hnd. apply in_app_iff. now left.
Qed.
Lemma tree_b_ok D F t : shows (lk D) F -> tree_b (lk D) t = true -> tree_at F t.
Proof.
  intros S. induction t as [n ts IH] using tree_ind'. intros H. cbn [tree_b] in H. apply andb_true_iff in H. destruct H as (H1 & H2).
  constructor.
  - symmetry. apply (chain_b_ok D F n S (map t_node ts) [] (children_of F n)); [reflexivity|]. now rewrite <- (sh_first _ _ S).
  - rewrite Forall_forall in *. rewrite forallb_forall in H2. auto.
Qed.
