(* Calls on the tree while the user holds borrows: which held nodes matter. *)
From Coq Require Import List Bool PeanoNat Lia.
From Verif Require Import Base Links Tree ForestSpec ListFacts TreeProofs ForestFacts TreeSpec TreeApi.
Import ListNotations.

(* ---- a guard can only make a call panic *)
Lemma bm_drop {A} G n (k : res A) v : borrow_mut G n k = Ok v -> k = Ok v.
Proof. unfold borrow_mut. now destruct (mem n G). Qed.
Lemma mem_mono n G1 G : mem n (G1 ++ G) = false -> mem n G1 = false.
Proof. rewrite mem_app. now intros [H _]%orb_false_iff. Qed.
Lemma bm_less {A} G1 G n (k k' : res A) v : (k = Ok v -> k' = Ok v) -> borrow_mut (G1 ++ G) n k = Ok v -> borrow_mut G1 n k' = Ok v.
Proof.
  intros Hk. unfold borrow_mut. destruct (mem n (G1 ++ G)) eqn:E; [easy|]. rewrite (mem_mono _ _ _ E). exact Hk.
Qed.
Lemma bind_less {A B} (r r' : res A) (k k' : A -> res B) v :
  (forall a, r = Ok a -> r' = Ok a) -> (forall a, k a = Ok v -> k' a = Ok v) -> bind r k = Ok v -> bind r' k' = Ok v.
Proof. intros Hr Hk. destruct r as [a| |]; try easy. rewrite (Hr a eq_refl). cbn. apply Hk. Qed.

Lemma detach_data_less G1 G n L L' : detach_data (G1 ++ G) n L = Ok L' -> detach_data G1 n L = Ok L'.
Proof.
  unfold detach_data. apply bind_less.
  - intros a. destruct (l_next L n); [apply bm_less; auto|]. destruct (l_parent L n); [apply bm_less; auto|auto].
  - intros a. destruct (l_prev L n); [apply bm_less; auto|]. destruct (l_parent L n); [apply bm_less; auto|auto].
Qed.
Lemma detach_less G n L L' : detach G n L = Ok L' -> detach [] n L = Ok L'.
Proof. unfold detach. apply (bm_less [] G). apply (detach_data_less [n]). Qed.
Lemma append_less G p n L L' : append G p n L = Ok L' -> append [] p n L = Ok L'.
Proof.
  unfold append. destruct (Nat.eqb p n); [easy|]. apply (bm_less [] G). apply (bm_less [p] G). apply bind_less.
  - intros a. apply (detach_data_less [n; p]).
  - intros a. destruct (l_last _ p); [apply (bm_less [p] G)|]; auto.
Qed.
Lemma prepend_less G p n L L' : prepend G p n L = Ok L' -> prepend [] p n L = Ok L'.
Proof.
  unfold prepend. destruct (Nat.eqb p n); [easy|]. apply (bm_less [] G). apply (bm_less [p] G). apply bind_less.
  - intros a. apply (detach_data_less [n; p]).
  - intros a. apply bind_less; [|auto]. intros b. destruct (l_first _ p); [apply (bm_less [n; p] G)|]; auto.
Qed.
Lemma insert_after_less G p n L L' : insert_after G p n L = Ok L' -> insert_after [] p n L = Ok L'.
Proof.
  unfold insert_after. destruct (Nat.eqb p n); [easy|]. apply (bm_less [] G). apply (bm_less [p] G). apply bind_less.
  - intros a. apply (detach_data_less [n; p]).
  - intros a. apply bind_less; [|auto]. intros b. destruct (l_next _ p); [apply (bm_less [n; p] G)|]; auto.
    destruct (l_parent _ p); [apply (bm_less [n; p] G)|]; auto.
Qed.
Lemma insert_before_less G p n L L' : insert_before G p n L = Ok L' -> insert_before [] p n L = Ok L'.
Proof.
  unfold insert_before. destruct (Nat.eqb p n); [easy|]. apply (bm_less [] G). apply (bm_less [p] G). apply bind_less.
  - intros a. apply (detach_data_less [n; p]).
  - intros a. destruct (l_prev _ p); [apply (bm_less [p] G)|]; auto.
    destruct (l_parent _ p); [apply (bm_less [p] G)|]; auto.
Qed.

(* ---- the cells a call rewrites *)
Definition same_links (L L' : links) (x : nid) : Prop :=
  parent L' x = parent L x /\ first_child L' x = first_child L x /\ last_child L' x = last_child L x /\
  next_sibling L' x = next_sibling L x /\ previous_sibling L' x = previous_sibling L x.
Definition oall (o : option nid) : list nid := match o with Some x => [x] | None => [] end.
Definition orelse (o o' : option nid) : list nid := match o with Some x => [x] | None => oall o' end.

Definition append_cells (p n : nid) (F : forest) : list nid :=
  p :: n :: adjoining F n ++ oall (last_error (children_of (f_detach n F) p)).
Definition prepend_cells (p n : nid) (F : forest) : list nid :=
  p :: n :: adjoining F n ++ oall (hd_error (children_of (f_detach n F) p)).
Definition after_cells (a n : nid) (F : forest) : list nid :=
  a :: n :: adjoining F n ++ orelse (succ_in a (siblings_of (f_detach n F) a)) (parent_of (f_detach n F) a).
Definition before_cells (a n : nid) (F : forest) : list nid :=
  a :: n :: adjoining F n ++ orelse (pred_in a (siblings_of (f_detach n F) a)) (parent_of (f_detach n F) a).

Lemma existsb_mem_app G1 G l : existsb (fun x => mem x (G1 ++ G)) l =
  existsb (fun x => mem x G1) l || existsb (fun x => mem x G) l.
Proof.
  induction l as [|x l IH]; [easy|]. cbn [existsb]. rewrite IH, mem_app.
  destruct (mem x G1), (mem x G), (existsb (fun x => mem x G1) l); reflexivity.
Qed.
Lemma existsb_oall G o : existsb (fun x => mem x G) (oall o) = match o with Some x => mem x G | None => false end.
Proof. destruct o as [x|]; [apply orb_false_r|easy]. Qed.
Lemma existsb_orelse G o o' : existsb (fun x => mem x G) (orelse o o') =
  match o with Some x => mem x G | None => match o' with Some x => mem x G | None => false end end.
Proof. destruct o as [x|]; [apply orb_false_r|apply existsb_oall]. Qed.

Lemma append_conflict_cells G p n F : append_conflict G p n F = append_conflict [] p n F || existsb (fun x => mem x G) (append_cells p n F).
Proof.
  unfold append_conflict, append_cells. cbn [existsb]. rewrite existsb_app, existsb_oall.
  change (n :: p :: G) with ([n; p] ++ G). rewrite existsb_mem_app. rewrite (mem_cons n p G).
  change (mem p []) with false. rewrite (mem_cons n p []). change (mem n []) with false.
  destruct (last_error _) as [x|]; [rewrite (mem_cons x p G), (mem_cons x p []); change (mem x []) with false; destruct (Nat.eqb x p), (mem x G)|];
  destruct (Nat.eqb n p), (mem n G), (mem p G), (existsb (fun x => mem x [n; p]) _), (existsb (fun x => mem x G) _); reflexivity.
Qed.
Lemma prepend_conflict_cells G p n F : prepend_conflict G p n F = prepend_conflict [] p n F || existsb (fun x => mem x G) (prepend_cells p n F).
Proof.
  unfold prepend_conflict, prepend_cells. cbn [existsb]. rewrite existsb_app, existsb_oall.
  change (n :: p :: G) with ([n; p] ++ G). rewrite existsb_mem_app. rewrite (mem_cons n p G).
  change (mem p []) with false. rewrite (mem_cons n p []). change (mem n []) with false.
  destruct (hd_error _) as [x|]; [rewrite (mem_app x [n; p] G); destruct (mem x [n; p]), (mem x G)|];
  destruct (Nat.eqb n p), (mem n G), (mem p G), (existsb (fun x => mem x [n; p]) _), (existsb (fun x => mem x G) _); reflexivity.
Qed.
Lemma after_conflict_cells G p n F : insert_after_conflict G p n F = insert_after_conflict [] p n F || existsb (fun x => mem x G) (after_cells p n F).
Proof.
  unfold insert_after_conflict, after_cells. cbn [existsb]. rewrite existsb_app, existsb_orelse.
  change (n :: p :: G) with ([n; p] ++ G). rewrite existsb_mem_app. rewrite (mem_cons n p G).
  change (mem p []) with false. rewrite (mem_cons n p []). change (mem n []) with false.
  destruct (succ_in p _) as [x|]; [|destruct (parent_of _ p) as [x|]]; try (rewrite (mem_app x [n; p] G); destruct (mem x [n; p]), (mem x G));
  destruct (Nat.eqb n p), (mem n G), (mem p G), (existsb (fun x => mem x [n; p]) _), (existsb (fun x => mem x G) _); reflexivity.
Qed.
Lemma before_conflict_cells G p n F : insert_before_conflict G p n F = insert_before_conflict [] p n F || existsb (fun x => mem x G) (before_cells p n F).
Proof.
  unfold insert_before_conflict, before_cells. cbn [existsb]. rewrite existsb_app, existsb_orelse.
  change (n :: p :: G) with ([n; p] ++ G). rewrite existsb_mem_app. rewrite (mem_cons n p G).
  change (mem p []) with false. rewrite (mem_cons n p []). change (mem n []) with false.
  destruct (pred_in p _) as [x|]; [|destruct (parent_of _ p) as [x|]];
    try (rewrite (mem_cons x p G), (mem_cons x p []); change (mem x []) with false; destruct (Nat.eqb x p), (mem x G));
  destruct (Nat.eqb n p), (mem n G), (mem p G), (existsb (fun x => mem x [n; p]) _), (existsb (fun x => mem x G) _); reflexivity.
Qed.

(* ---- neighbours in a forest *)
Definition nx (F : forest) (x : nid) : option nid := succ_in x (siblings_of F x).
Definition pv (F : forest) (x : nid) : option nid := pred_in x (siblings_of F x).
Definition fi (F : forest) (x : nid) : option nid := hd_error (children_of F x).
Definition la (F : forest) (x : nid) : option nid := last_error (children_of F x).
Definition nav_same (F F' : forest) (x : nid) : Prop :=
  parent_of F' x = parent_of F x /\ fi F' x = fi F x /\ la F' x = la F x /\ nx F' x = nx F x /\ pv F' x = pv F x.
Lemma same_nav L L' F F' x : Rep L F -> Rep L' F' -> same_links L L' x <-> nav_same F F' x.
Proof.
  intros R R'. unfold same_links, nav_same, parent, first_child, last_child, next_sibling, previous_sibling, fi, la, nx, pv.
  rewrite (r_parent L F R), (r_parent L' F' R'), (r_first L F R), (r_first L' F' R'), (r_last L F R), (r_last L' F' R'),
    (r_next L F R), (r_next L' F' R'), (r_prev L F R), (r_prev L' F' R'). reflexivity.
Qed.

Section Dual.
  Context (F : forest) (W : wf_forest F).
  Lemma nx_pv x y : nx F x = Some y <-> pv F y = Some x.
  Proof. apply succ_pred_F. exact W. Qed.
  Lemma fi_iff q x : fi F q = Some x <-> parent_of F x = Some q /\ pv F x = None.
  Proof.
    unfold fi, pv. split.
    - intros H. pose proof (hd_error_In _ _ H) as Hin. split; [now apply W|].
      rewrite (child_siblings F W q x Hin). apply pred_none_hd; [now apply children_nodup|exact Hin|exact H].
    - intros (H & E). rewrite (wf_parent F W x q H) in E. apply pred_none_hd in E; [exact E|now apply children_nodup|].
      rewrite <- (wf_parent F W x q H). apply W.
  Qed.
  Lemma la_iff q x : la F q = Some x <-> parent_of F x = Some q /\ nx F x = None.
  Proof.
    unfold la, nx. split.
    - intros H. pose proof (last_error_In _ _ H) as Hin. split; [now apply W|].
      rewrite (child_siblings F W q x Hin). apply succ_none_last; [now apply children_nodup|exact Hin|exact H].
    - intros (H & E). rewrite (wf_parent F W x q H) in E. apply succ_none_last in E; [exact E|now apply children_nodup|].
      rewrite <- (wf_parent F W x q H). apply W.
  Qed.
  Lemma nx_neq x : nx F x <> Some x.
  Proof. intros H. now apply succ_in_neq in H; [|apply W]. Qed.
  Lemma pv_neq x : pv F x <> Some x.
  Proof. intros H. now apply pred_in_neq in H; [|apply W]. Qed.
  Lemma nx_parent x y : nx F x = Some y -> parent_of F y = parent_of F x.
  Proof. intros H. apply succ_in_In in H. now destruct (wf_share F W x y (proj2 H)). Qed.
  Lemma adj_iff n x : In x (adjoining F n) <->
    nx F n = Some x \/ pv F n = Some x \/ parent_of F n = Some x /\ (nx F n = None \/ pv F n = None).
  Proof.
    unfold adjoining, nx, pv. rewrite in_app_iff.
    destruct (succ_in n _) as [a|], (pred_in n _) as [b|], (parent_of F n) as [p|]; cbn;
      split; intuition (try congruence); try (left; congruence); try (right; congruence).
  Qed.
End Dual.

Definition cut (o n o' : option nid) : option nid := if onid_eqb o n then o' else o.
Lemma cut_eq n o' : cut n n o' = o'.
Proof. unfold cut. now rewrite (proj2 (onid_eqb_eq n n) eq_refl). Qed.
Lemma cut_neq o n o' : o <> n -> cut o n o' = o.
Proof. intros H. unfold cut. destruct (onid_eqb o n) eqn:E; [|easy]. now apply onid_eqb_eq in E. Qed.

Section Fields.
  Context (F : forest) (W : wf_forest F).
  Lemma share_list x y : In y (siblings_of F x) -> siblings_of F y = siblings_of F x.
  Proof. intros H. now apply W. Qed.
  Lemma rm_nx n x : x <> n -> succ_in x (rm n (siblings_of F x)) = cut (nx F x) (Some n) (nx F n).
  Proof.
    intros H. rewrite succ_in_rm by (auto; apply W). fold (nx F x). unfold cut. destruct (onid_eqb _ _) eqn:E; [|easy].
    apply onid_eqb_eq in E. apply succ_in_In in E. unfold nx. now rewrite (share_list x n (proj2 E)).
  Qed.
  Lemma rm_pv n x : x <> n -> pred_in x (rm n (siblings_of F x)) = cut (pv F x) (Some n) (pv F n).
  Proof.
    intros H. rewrite pred_in_rm by (auto; apply W). fold (pv F x). unfold cut. destruct (onid_eqb _ _) eqn:E; [|easy].
    apply onid_eqb_eq in E. apply pred_in_In in E. unfold pv. now rewrite (share_list x n (proj2 E)).
  Qed.
  Lemma rm_fi n q : hd_error (rm n (children_of F q)) = cut (fi F q) (Some n) (nx F n).
  Proof.
    rewrite hd_error_rm by now apply children_nodup. fold (fi F q). unfold cut. destruct (onid_eqb _ _) eqn:E; [|easy].
    apply onid_eqb_eq in E. apply hd_error_In in E. unfold nx. now rewrite (child_siblings F W q n E).
  Qed.
  Lemma rm_la n q : last_error (rm n (children_of F q)) = cut (la F q) (Some n) (pv F n).
  Proof.
    rewrite last_error_rm by now apply children_nodup. fold (la F q). unfold cut. destruct (onid_eqb _ _) eqn:E; [|easy].
    apply onid_eqb_eq in E. apply last_error_In in E. unfold pv. now rewrite (child_siblings F W q n E).
  Qed.

  (* detach *)
  Lemma detach_nx n x : x <> n -> nx (f_detach n F) x = cut (nx F x) (Some n) (nx F n).
  Proof. intros H. unfold nx at 1. cbn. destruct (Nat.eqb_spec x n); [easy|]. now apply rm_nx. Qed.
  Lemma detach_pv n x : x <> n -> pv (f_detach n F) x = cut (pv F x) (Some n) (pv F n).
  Proof. intros H. unfold pv at 1. cbn. destruct (Nat.eqb_spec x n); [easy|]. now apply rm_pv. Qed.
  Lemma detach_fi n q : fi (f_detach n F) q = cut (fi F q) (Some n) (nx F n).
  Proof. apply rm_fi. Qed.
  Lemma detach_la n q : la (f_detach n F) q = cut (la F q) (Some n) (pv F n).
  Proof. apply rm_la. Qed.
End Fields.

Section Inserted.
  Context (F1 : forest) (W1 : wf_forest F1) (n : nid) (Hp : parent_of F1 n = None) (Hs : siblings_of F1 n = [n])
    (Hc : forall p, ~ In n (children_of F1 p)) (Hn : forall m, m <> n -> ~ In n (siblings_of F1 m)).

  Lemma mem_child p x : mem x (children_of F1 p) = true -> siblings_of F1 x = children_of F1 p.
  Proof. intros H. apply mem_In in H. now apply child_siblings. Qed.

  (* at the end *)
  Let Fa p := f_set_children p (children_of F1 p ++ [n]) F1.
  Lemma a_parent p x : parent_of (Fa p) x = if Nat.eqb x n then Some p else parent_of F1 x.
  Proof.
    cbn. rewrite mem_app, mem_cons. change (mem x []) with false. rewrite orb_false_r.
    destruct (mem x (children_of F1 p)) eqn:E; cbn [orb].
    - apply mem_In in E. destruct (Nat.eqb x n); [easy|]. now rewrite (wf_child F1 W1 p x E).
    - now destruct (Nat.eqb x n).
  Qed.
  Lemma a_nx p x : x <> n -> nx (Fa p) x = if onid_eqb (la F1 p) (Some x) then Some n else nx F1 x.
  Proof.
    intros H. unfold nx. cbn. rewrite mem_app, mem_cons. change (mem x []) with false.
    destruct (Nat.eqb_spec x n); [easy|]. cbn [orb]. rewrite orb_false_r. destruct (mem x (children_of F1 p)) eqn:E.
    - rewrite succ_in_snoc by (auto; now apply children_nodup). now rewrite (mem_child p x E).
    - destruct (onid_eqb (la F1 p) (Some x)) eqn:E2; [|easy]. apply onid_eqb_eq in E2. apply last_error_In in E2.
      apply mem_In in E2. congruence.
  Qed.
  Lemma a_nx_self p : nx (Fa p) n = None.
  Proof.
    unfold nx. cbn. rewrite mem_app, mem_cons, Nat.eqb_refl, orb_true_r.
    rewrite succ_in_app_r by apply Hc. cbn. now rewrite Nat.eqb_refl.
  Qed.
  Lemma a_pv p x : x <> n -> pv (Fa p) x = pv F1 x.
  Proof.
    intros H. unfold pv. cbn. rewrite mem_app, mem_cons. change (mem x []) with false.
    destruct (Nat.eqb_spec x n) as [|Hx]; [easy|]. cbn [orb]. rewrite orb_false_r. destruct (mem x (children_of F1 p)) eqn:E; [|easy].
    rewrite pred_in_snoc by auto. apply Nat.eqb_neq in Hx. rewrite Hx. now rewrite (mem_child p x E).
  Qed.
  Lemma a_fi p q : q <> p -> fi (Fa p) q = fi F1 q.
  Proof. intros H. unfold fi. cbn. destruct (Nat.eqb_spec q p); easy. Qed.
  Lemma a_la p q : q <> p -> la (Fa p) q = la F1 q.
  Proof. intros H. unfold la. cbn. destruct (Nat.eqb_spec q p); easy. Qed.

  (* at the front *)
  Let Fp p := f_set_children p (n :: children_of F1 p) F1.
  Lemma p_parent p x : parent_of (Fp p) x = if Nat.eqb x n then Some p else parent_of F1 x.
  Proof.
    cbn [Fp f_set_children parent_of]. unfold Fp. cbn [f_set_children parent_of]. rewrite mem_cons.
    destruct (Nat.eqb x n); [easy|]. cbn [orb]. destruct (mem x (children_of F1 p)) eqn:E; [|easy].
    apply mem_In in E. now rewrite (wf_child F1 W1 p x E).
  Qed.
  Lemma p_nx p x : x <> n -> nx (Fp p) x = nx F1 x.
  Proof.
    intros H. unfold nx, Fp. cbn [f_set_children siblings_of]. rewrite mem_cons.
    destruct (Nat.eqb_spec x n) as [|Hx]; [easy|]. cbn [orb]. destruct (mem x (children_of F1 p)) eqn:E; [|easy].
    rewrite succ_in_cons. apply Nat.eqb_neq in Hx. rewrite Hx. now rewrite (mem_child p x E).
  Qed.
  Lemma p_pv p x : x <> n -> pv (Fp p) x = if onid_eqb (fi F1 p) (Some x) then Some n else pv F1 x.
  Proof.
    intros H. unfold pv, Fp. cbn [f_set_children siblings_of]. rewrite mem_cons.
    destruct (Nat.eqb_spec x n) as [|Hx]; [easy|]. cbn [orb]. destruct (mem x (children_of F1 p)) eqn:E.
    - rewrite pred_in_cons by (auto; now apply children_nodup). now rewrite (mem_child p x E).
    - destruct (onid_eqb (fi F1 p) (Some x)) eqn:E2; [|easy]. apply onid_eqb_eq in E2. apply hd_error_In in E2.
      apply mem_In in E2. congruence.
  Qed.
  Lemma p_pv_self p : pv (Fp p) n = None.
  Proof.
    unfold pv, Fp. cbn [f_set_children siblings_of]. rewrite mem_cons, Nat.eqb_refl. cbn [orb].
    apply pred_none_hd; [|now left|easy]. constructor; [apply Hc|now apply children_nodup].
  Qed.
  Lemma p_fi p q : q <> p -> fi (Fp p) q = fi F1 q.
  Proof. intros H. unfold fi. cbn. destruct (Nat.eqb_spec q p); easy. Qed.
  Lemma p_la p q : q <> p -> la (Fp p) q = la F1 q.
  Proof. intros H. unfold la. cbn. destruct (Nat.eqb_spec q p); easy. Qed.

  (* behind and before a node *)
  Context (a : nid) (Ha : a <> n).
  Let Ia : In a (siblings_of F1 a) := wf_self F1 W1 a.
  Lemma sib_mem x : In x (siblings_of F1 a) -> siblings_of F1 x = siblings_of F1 a /\ parent_of F1 x = parent_of F1 a.
  Proof. apply W1. Qed.
  Let Fi := f_set_siblings a (ins_after a n (siblings_of F1 a)) F1.
  Let Fb := f_set_siblings a (ins_before a n (siblings_of F1 a)) F1.
  Lemma mem_after x : mem x (ins_after a n (siblings_of F1 a)) = Nat.eqb x n || mem x (siblings_of F1 a).
  Proof.
    apply eq_true_iff_eq. rewrite orb_true_iff, !mem_In, (in_ins_after _ _ _ _ Ia), Nat.eqb_eq. tauto.
  Qed.
  Lemma mem_before x : mem x (ins_before a n (siblings_of F1 a)) = Nat.eqb x n || mem x (siblings_of F1 a).
  Proof.
    apply eq_true_iff_eq. rewrite orb_true_iff, !mem_In, (in_ins_before _ _ _ _ Ia), Nat.eqb_eq. tauto.
  Qed.
  Lemma i_parent x : parent_of Fi x = if Nat.eqb x n then parent_of F1 a else parent_of F1 x.
  Proof.
    unfold Fi. cbn [f_set_siblings parent_of]. rewrite mem_after. destruct (Nat.eqb x n); [easy|]. cbn [orb].
    destruct (mem x _) eqn:E; [|easy]. apply mem_In in E. symmetry. now apply sib_mem.
  Qed.
  Lemma b_parent x : parent_of Fb x = if Nat.eqb x n then parent_of F1 a else parent_of F1 x.
  Proof.
    unfold Fb. cbn [f_set_siblings parent_of]. rewrite mem_before. destruct (Nat.eqb x n); [easy|]. cbn [orb].
    destruct (mem x _) eqn:E; [|easy]. apply mem_In in E. symmetry. now apply sib_mem.
  Qed.
  Lemma i_nx x : x <> n -> nx Fi x = if Nat.eqb x a then Some n else nx F1 x.
  Proof.
    intros H. unfold nx, Fi. cbn [f_set_siblings siblings_of]. rewrite mem_after. destruct (Nat.eqb_spec x n) as [|Hx]; [easy|].
    cbn [orb]. destruct (mem x _) eqn:E.
    - apply mem_In in E. rewrite succ_in_ins_after by (auto; apply W1). destruct (Nat.eqb x a); [easy|].
      apply Nat.eqb_neq in Hx. rewrite Hx. now rewrite (proj1 (sib_mem x E)).
    - destruct (Nat.eqb_spec x a) as [->|]; [|easy]. apply mem_not_In in E. contradiction.
  Qed.
  Lemma i_nx_self : nx Fi n = nx F1 a.
  Proof.
    unfold nx, Fi. cbn [f_set_siblings siblings_of]. rewrite mem_after, Nat.eqb_refl. cbn [orb].
    rewrite succ_in_ins_after by (auto; apply W1). rewrite Nat.eqb_refl. destruct (Nat.eqb_spec n a); [congruence|easy].
  Qed.
  Lemma i_pv x : x <> n -> pv Fi x = if onid_eqb (nx F1 a) (Some x) then Some n else pv F1 x.
  Proof.
    intros H. unfold pv, Fi. cbn [f_set_siblings siblings_of]. rewrite mem_after. destruct (Nat.eqb_spec x n) as [|Hx]; [easy|].
    cbn [orb]. destruct (mem x _) eqn:E.
    - apply mem_In in E. rewrite pred_in_ins_after by (auto; apply W1). apply Nat.eqb_neq in Hx. rewrite Hx.
      now rewrite (proj1 (sib_mem x E)).
    - destruct (onid_eqb (nx F1 a) (Some x)) eqn:E2; [|easy]. apply onid_eqb_eq in E2. apply succ_in_In in E2.
      apply mem_not_In in E. now destruct E2.
  Qed.
  Lemma i_pv_self : pv Fi n = Some a.
  Proof.
    unfold pv, Fi. cbn [f_set_siblings siblings_of]. rewrite mem_after, Nat.eqb_refl. cbn [orb].
    rewrite pred_in_ins_after by (auto; apply W1). now rewrite Nat.eqb_refl.
  Qed.
  Lemma i_fi q : fi Fi q = fi F1 q.
  Proof.
    unfold fi, Fi. cbn [f_set_siblings children_of]. destruct (parent_of F1 a) as [p|] eqn:E; [|easy].
    destruct (Nat.eqb_spec q p) as [->|]; [|easy]. now rewrite hd_error_ins_after, (wf_parent F1 W1 a p E).
  Qed.
  Lemma i_la q : la Fi q = if onid_eqb (parent_of F1 a) (Some q) then match nx F1 a with None => Some n | Some _ => la F1 q end else la F1 q.
  Proof.
    unfold la, Fi. cbn [f_set_siblings children_of]. destruct (parent_of F1 a) as [p|] eqn:E; [|easy]. cbn [onid_eqb].
    rewrite Nat.eqb_sym. destruct (Nat.eqb_spec p q) as [->|]; [|easy].
    rewrite last_error_ins_after by (auto; apply W1). unfold nx. now rewrite (wf_parent F1 W1 a q E).
  Qed.
  Lemma b_pv x : x <> n -> pv Fb x = if Nat.eqb x a then Some n else pv F1 x.
  Proof.
    intros H. unfold pv, Fb. cbn [f_set_siblings siblings_of]. rewrite mem_before. destruct (Nat.eqb_spec x n) as [|Hx]; [easy|].
    cbn [orb]. destruct (mem x _) eqn:E.
    - apply mem_In in E. rewrite pred_in_ins_before by (auto; apply W1). destruct (Nat.eqb x a); [easy|].
      apply Nat.eqb_neq in Hx. rewrite Hx. now rewrite (proj1 (sib_mem x E)).
    - destruct (Nat.eqb_spec x a) as [->|]; [|easy]. apply mem_not_In in E. contradiction.
  Qed.
  Lemma b_pv_self : pv Fb n = pv F1 a.
  Proof.
    unfold pv, Fb. cbn [f_set_siblings siblings_of]. rewrite mem_before, Nat.eqb_refl. cbn [orb].
    rewrite pred_in_ins_before by (auto; apply W1). rewrite Nat.eqb_refl. destruct (Nat.eqb_spec n a); [congruence|easy].
  Qed.
  Lemma b_nx x : x <> n -> nx Fb x = if onid_eqb (pv F1 a) (Some x) then Some n else nx F1 x.
  Proof.
    intros H. unfold nx, Fb. cbn [f_set_siblings siblings_of]. rewrite mem_before. destruct (Nat.eqb_spec x n) as [|Hx]; [easy|].
    cbn [orb]. destruct (mem x _) eqn:E.
    - apply mem_In in E. rewrite succ_in_ins_before by (auto; apply W1). apply Nat.eqb_neq in Hx. rewrite Hx.
      now rewrite (proj1 (sib_mem x E)).
    - destruct (onid_eqb (pv F1 a) (Some x)) eqn:E2; [|easy]. apply onid_eqb_eq in E2. apply pred_in_In in E2.
      apply mem_not_In in E. now destruct E2.
  Qed.
  Lemma b_nx_self : nx Fb n = Some a.
  Proof.
    unfold nx, Fb. cbn [f_set_siblings siblings_of]. rewrite mem_before, Nat.eqb_refl. cbn [orb].
    rewrite succ_in_ins_before by (auto; apply W1). now rewrite Nat.eqb_refl.
  Qed.
  Lemma b_la q : la Fb q = la F1 q.
  Proof.
    unfold la, Fb. cbn [f_set_siblings children_of]. destruct (parent_of F1 a) as [p|] eqn:E; [|easy].
    destruct (Nat.eqb_spec q p) as [->|]; [|easy]. rewrite last_error_ins_before by (auto; apply W1).
    now rewrite (wf_parent F1 W1 a p E).
  Qed.
  Lemma b_fi q : fi Fb q = if onid_eqb (parent_of F1 a) (Some q) then match pv F1 a with None => Some n | Some _ => fi F1 q end else fi F1 q.
  Proof.
    unfold fi, Fb. cbn [f_set_siblings children_of]. destruct (parent_of F1 a) as [p|] eqn:E; [|easy]. cbn [onid_eqb].
    rewrite Nat.eqb_sym. destruct (Nat.eqb_spec p q) as [->|]; [|easy].
    rewrite hd_error_ins_before by (auto; apply W1). unfold pv. now rewrite (wf_parent F1 W1 a q E).
  Qed.
End Inserted.

(* ---- the rewritten cells are the nodes whose neighbours change *)
Section Changed.
  Context (F : forest) (W : wf_forest F) (n : nid).
  Let F1 := f_detach n F.
  Let W1 : wf_forest F1 := wf_detach F W n.
  Let D1 := detached_facts n F W.
  Let Hp1 : parent_of F1 n = None := proj1 (proj2 D1).
  Let Hs1 : siblings_of F1 n = [n] := proj1 (proj2 (proj2 D1)).
  Let Hc1 : forall p, ~ In n (children_of F1 p) := proj1 (proj2 (proj2 (proj2 D1))).
  Let Hn1 : forall m, m <> n -> ~ In n (siblings_of F1 m) := proj2 (proj2 (proj2 (proj2 D1))).

  Lemma far_nx x : ~ In x (adjoining F n) -> nx F x <> Some n.
  Proof. intros H E. apply H, adj_iff. right. left. now apply nx_pv in E. Qed.
  Lemma far_pv x : ~ In x (adjoining F n) -> pv F x <> Some n.
  Proof. intros H E. apply H, adj_iff. left. now apply nx_pv. Qed.
  Lemma far_fi x : ~ In x (adjoining F n) -> fi F x <> Some n.
  Proof. intros H E. apply H, adj_iff. right. right. apply fi_iff in E; [tauto|exact W]. Qed.
  Lemma far_la x : ~ In x (adjoining F n) -> la F x <> Some n.
  Proof. intros H E. apply H, adj_iff. right. right. apply la_iff in E; [tauto|exact W]. Qed.
  Lemma far_same x : x <> n -> ~ In x (adjoining F n) ->
    parent_of F1 x = parent_of F x /\ fi F1 x = fi F x /\ la F1 x = la F x /\ nx F1 x = nx F x /\ pv F1 x = pv F x.
  Proof.
    intros Hx H. unfold F1. rewrite detach_nx, detach_pv, detach_fi, detach_la by auto.
    rewrite !cut_neq by (auto using far_nx, far_pv, far_fi, far_la). cbn. destruct (Nat.eqb_spec x n); easy.
  Qed.
  Lemma F1_parent x : x <> n -> parent_of F1 x = parent_of F x.
  Proof. intros H. cbn. destruct (Nat.eqb_spec x n); easy. Qed.

  (* [x] is next to [n], then it lost something that pointed to [n] *)
  Lemma near x : In x (adjoining F n) -> nx F x = Some n \/ pv F x = Some n \/ fi F x = Some n \/ la F x = Some n.
  Proof.
    intros H. apply adj_iff in H. destruct H as [H|[H|(H & [E|E])]].
    - right. left. now apply nx_pv.
    - left. now apply nx_pv.
    - right. right. right. now apply la_iff.
    - right. right. left. now apply fi_iff.
  Qed.
  Lemma near_iff x : In x (adjoining F n) <-> nx F x = Some n \/ pv F x = Some n \/ fi F x = Some n \/ la F x = Some n.
  Proof.
    split; [apply near|]. intros [H|[H|[H|H]]]; apply adj_iff.
    - right. left. now apply nx_pv.
    - left. now apply nx_pv.
    - right. right. apply fi_iff in H; [tauto|exact W].
    - right. right. apply la_iff in H; [tauto|exact W].
  Qed.

  Lemma detach_changed x : ~ In n (adjoining F n) -> x <> n -> In x (adjoining F n) <-> ~ nav_same F F1 x.
  Proof.
    intros Hself Hx. split.
    - intros H S. destruct S as (_ & S1 & S2 & S3 & S4). destruct (near x H) as [E|[E|[E|E]]].
      + rewrite E in S3. apply succ_in_In in S3. cbn in S3. destruct (Nat.eqb_spec x n); [easy|].
        destruct S3 as (_ & S3). apply in_rm in S3. tauto.
      + rewrite E in S4. apply pred_in_In in S4. cbn in S4. destruct (Nat.eqb_spec x n); [easy|].
        destruct S4 as (_ & S4). apply in_rm in S4. tauto.
      + rewrite E in S1. apply hd_error_In in S1. now apply Hc1 in S1.
      + rewrite E in S2. apply last_error_In in S2. now apply Hc1 in S2.
    - intros S. destruct (in_dec Nat.eq_dec x (adjoining F n)) as [H|H]; [exact H|]. exfalso. apply S.
      now apply far_same.
  Qed.

  (* what the result of an insertion looks like, seen from [n] *)
  Lemma still F' x : wf_forest F' -> x <> n -> In x (adjoining F n) -> nav_same F F' x ->
    (nx F n = Some x -> nx F' n = Some x) /\ (pv F n = Some x -> pv F' n = Some x) /\
    (parent_of F n = Some x -> nx F n = None -> parent_of F' n = Some x /\ nx F' n = None) /\
    (parent_of F n = Some x -> pv F n = None -> parent_of F' n = Some x /\ pv F' n = None).
  Proof.
    intros W' Hx H (S0 & S1 & S2 & S3 & S4). split; [|split; [|split]].
    - intros E. apply nx_pv in E; [|exact W]. rewrite <- S4 in E. now apply nx_pv.
    - intros E. apply nx_pv in E; [|exact W]. rewrite <- S3 in E. now apply nx_pv.
    - intros E E2. apply (la_iff F' W'). rewrite S2. now apply la_iff.
    - intros E E2. apply (fi_iff F' W'). rewrite S1. now apply fi_iff.
  Qed.

  Lemma free2 p : existsb (fun x => mem x [n; p]) (adjoining F n) = false -> ~ In p (adjoining F n) /\ ~ In n (adjoining F n).
  Proof.
    intros C. split; intros H; assert (E : existsb (fun x => mem x [n; p]) (adjoining F n) = true); try congruence;
      apply existsb_exists; eexists; (split; [exact H|]); apply mem_In; cbn; auto.
  Qed.

  Section Append.
    Context (p : nid) (Hpn : p <> n) (C : append_conflict [] p n F = false).
    Let F' := f_append p n F.
    Context (W' : wf_forest F').
    Lemma append_free : ~ In p (adjoining F n) /\ ~ In n (adjoining F n) /\ la F p <> Some n /\ la F1 p = la F p /\ la F p <> Some p.
    Proof.
      unfold append_conflict in C. apply orb_false_iff in C. destruct C as (C1 & C2). apply orb_false_iff in C1.
      destruct C1 as (_ & C1). apply free2 in C1. destruct C1 as (Hp & Hn).
      assert (Hl : la F p <> Some n) by now apply far_la.
      split; [exact Hp|]. split; [exact Hn|]. split; [exact Hl|].
      assert (E : la F1 p = la F p) by (unfold F1; rewrite detach_la by exact W; now rewrite cut_neq).
      split; [exact E|]. intros E2. rewrite <- E in E2. unfold la in E2. fold F1 in C2. rewrite E2 in C2.
      rewrite mem_cons, Nat.eqb_refl in C2. discriminate.
    Qed.
    Lemma append_changed x : In x (append_cells p n F) <-> ~ nav_same F F' x.
    Proof.
      destruct append_free as (Hp & Hn & Hl & E1 & Hpp).
      assert (A : In x (append_cells p n F) <-> x = p \/ x = n \/ In x (adjoining F n) \/ la F p = Some x).
      { unfold append_cells. cbn [In]. rewrite in_app_iff. fold F1. change (last_error (children_of F1 p)) with (la F1 p). rewrite E1.
        destruct (la F p) as [y|]; cbn; intuition (try congruence). }
      rewrite A. split.
      - intros H S. pose proof S as (S0 & S1 & S2 & S3 & S4). destruct (Nat.eq_dec x p) as [->|Hxp].
        { assert (la F' p = Some n); [|congruence]. apply la_iff; [exact W'|]. unfold F', f_append.
          rewrite a_parent by auto. rewrite a_nx_self by auto. now rewrite Nat.eqb_refl. }
        destruct (Nat.eq_dec x n) as [->|Hxn].
        { unfold F', f_append in S0, S3. rewrite a_parent, Nat.eqb_refl in S0 by auto. rewrite a_nx_self in S3 by auto.
          apply Hp, adj_iff. right. right. split; [congruence|]. left. congruence. }
        destruct H as [H|[H|[H|H]]]; try contradiction.
        + destruct (still F' x W' Hxn H S) as (T1 & T2 & T3 & T4). apply adj_iff in H. destruct H as [H|[H|(H & [H2|H2])]].
          * apply T1 in H. unfold F', f_append in H. rewrite a_nx_self in H by auto. discriminate.
          * apply (nx_pv F W) in H. unfold F', f_append in S3. rewrite a_nx in S3 by auto. fold F1 in S3. rewrite E1 in S3.
            destruct (onid_eqb (la F p) (Some x)) eqn:E.
            { apply onid_eqb_eq in E. apply (la_iff F W) in E. destruct E. congruence. }
            unfold F1 in S3. rewrite detach_nx in S3 by auto. rewrite H, cut_eq in S3. now apply nx_neq in S3.
          * destruct (T3 H H2) as (T & _). unfold F', f_append in T. rewrite a_parent, Nat.eqb_refl in T by auto. congruence.
          * destruct (T4 H H2) as (T & _). unfold F', f_append in T. rewrite a_parent, Nat.eqb_refl in T by auto. congruence.
        + unfold F', f_append in S3. rewrite a_nx in S3 by auto. fold F1 in S3. rewrite E1, H in S3. cbn [onid_eqb] in S3.
          rewrite Nat.eqb_refl in S3. apply (la_iff F W) in H. destruct H. congruence.
      - intros S. destruct (Nat.eq_dec x p) as [->|Hxp]; [auto|]. destruct (Nat.eq_dec x n) as [->|Hxn]; [auto|].
        right. right. destruct (in_dec Nat.eq_dec x (adjoining F n)) as [H|H]; [auto|]. right.
        destruct (onid_eqb (la F p) (Some x)) eqn:E; [now apply onid_eqb_eq in E|]. exfalso. apply S.
        destruct (far_same x Hxn H) as (T0 & T1 & T2 & T3 & T4). unfold F', f_append. fold F1. unfold nav_same.
        rewrite a_parent, a_fi, a_la, a_nx, a_pv by auto. rewrite E1, E.
        apply Nat.eqb_neq in Hxn. now rewrite Hxn.
    Qed.
  End Append.

  Section Prepend.
    Context (p : nid) (Hpn : p <> n) (C : prepend_conflict [] p n F = false).
    Let F' := f_prepend p n F.
    Context (W' : wf_forest F').
    Lemma prepend_free : ~ In p (adjoining F n) /\ ~ In n (adjoining F n) /\ fi F p <> Some n /\ fi F1 p = fi F p.
    Proof.
      unfold prepend_conflict in C. apply orb_false_iff in C. destruct C as (C1 & C2). apply orb_false_iff in C1.
      destruct C1 as (_ & C1). apply free2 in C1. destruct C1 as (Hp & Hn).
      assert (Hl : fi F p <> Some n) by now apply far_fi.
      split; [exact Hp|]. split; [exact Hn|]. split; [exact Hl|]. unfold F1; rewrite detach_fi by exact W; now rewrite cut_neq.
    Qed.
    Lemma prepend_changed x : In x (prepend_cells p n F) <-> ~ nav_same F F' x.
    Proof.
      destruct prepend_free as (Hp & Hn & Hl & E1).
      assert (A : In x (prepend_cells p n F) <-> x = p \/ x = n \/ In x (adjoining F n) \/ fi F p = Some x).
      { unfold prepend_cells. cbn [In]. rewrite in_app_iff. fold F1. change (hd_error (children_of F1 p)) with (fi F1 p). rewrite E1.
        destruct (fi F p) as [y|]; cbn; intuition (try congruence). }
      rewrite A. split.
      - intros H S. pose proof S as (S0 & S1 & S2 & S3 & S4). destruct (Nat.eq_dec x p) as [->|Hxp].
        { assert (fi F' p = Some n); [|congruence]. apply fi_iff; [exact W'|]. unfold F', f_prepend.
          rewrite p_parent by auto. rewrite p_pv_self by auto. now rewrite Nat.eqb_refl. }
        destruct (Nat.eq_dec x n) as [->|Hxn].
        { unfold F', f_prepend in S0, S4. rewrite p_parent, Nat.eqb_refl in S0 by auto. rewrite p_pv_self in S4 by auto.
          apply Hp, adj_iff. right. right. split; [congruence|]. right. congruence. }
        destruct H as [H|[H|[H|H]]]; try contradiction.
        + destruct (still F' x W' Hxn H S) as (T1 & T2 & T3 & T4). apply adj_iff in H. destruct H as [H|[H|(H & [H2|H2])]].
          * apply (nx_pv F W) in H. unfold F', f_prepend in S4. rewrite p_pv in S4 by auto. fold F1 in S4. rewrite E1 in S4.
            destruct (onid_eqb (fi F p) (Some x)) eqn:E.
            { apply onid_eqb_eq in E. apply (fi_iff F W) in E. destruct E. congruence. }
            unfold F1 in S4. rewrite detach_pv in S4 by auto. rewrite H, cut_eq in S4. now apply pv_neq in S4.
          * apply T2 in H. unfold F', f_prepend in H. rewrite p_pv_self in H by auto. discriminate.
          * destruct (T3 H H2) as (T & _). unfold F', f_prepend in T. rewrite p_parent, Nat.eqb_refl in T by auto. congruence.
          * destruct (T4 H H2) as (T & _). unfold F', f_prepend in T. rewrite p_parent, Nat.eqb_refl in T by auto. congruence.
        + unfold F', f_prepend in S4. rewrite p_pv in S4 by auto. fold F1 in S4. rewrite E1, H in S4. cbn [onid_eqb] in S4.
          rewrite Nat.eqb_refl in S4. apply (fi_iff F W) in H. destruct H. congruence.
      - intros S. destruct (Nat.eq_dec x p) as [->|Hxp]; [auto|]. destruct (Nat.eq_dec x n) as [->|Hxn]; [auto|].
        right. right. destruct (in_dec Nat.eq_dec x (adjoining F n)) as [H|H]; [auto|]. right.
        destruct (onid_eqb (fi F p) (Some x)) eqn:E; [now apply onid_eqb_eq in E|]. exfalso. apply S.
        destruct (far_same x Hxn H) as (T0 & T1 & T2 & T3 & T4). unfold F', f_prepend. fold F1. unfold nav_same.
        rewrite p_parent, p_fi, p_la, p_nx, p_pv by auto. rewrite E1, E.
        apply Nat.eqb_neq in Hxn. now rewrite Hxn.
    Qed.
  End Prepend.

  Section After.
    Context (a : nid) (Han : a <> n) (C : insert_after_conflict [] a n F = false).
    Let F' := f_insert_after a n F.
    Context (W' : wf_forest F').
    Lemma after_free : ~ In a (adjoining F n) /\ ~ In n (adjoining F n) /\ nx F1 a = nx F a /\ parent_of F1 a = parent_of F a /\
      (nx F a = None -> parent_of F a <> Some n /\ parent_of F a <> Some a).
    Proof.
      unfold insert_after_conflict in C. apply orb_false_iff in C. destruct C as (C1 & C2). apply orb_false_iff in C1.
      destruct C1 as (_ & C1). apply free2 in C1. destruct C1 as (Ha & Hn).
      destruct (far_same a Han Ha) as (T0 & T1 & T2 & T3 & T4). split; [exact Ha|]. split; [exact Hn|].
      split; [exact T3|]. split; [exact T0|]. intros E. fold F1 in C2. fold (nx F1 a) in C2. rewrite T3, E, T0 in C2.
      destruct (parent_of F a) as [q|]; [|easy]. apply mem_not_In in C2. cbn in C2. intuition congruence.
    Qed.
    Lemma after_changed x : In x (after_cells a n F) <-> ~ nav_same F F' x.
    Proof.
      destruct after_free as (Ha & Hn & E1 & E2 & E3).
      assert (A : In x (after_cells a n F) <-> x = a \/ x = n \/ In x (adjoining F n) \/ nx F a = Some x \/ nx F a = None /\ parent_of F a = Some x).
      { unfold after_cells. cbn [In]. rewrite in_app_iff. fold F1. fold (nx F1 a). rewrite E1, E2.
        destruct (nx F a) as [y|]; cbn; [intuition (try congruence)|]. destruct (parent_of F a); cbn; intuition congruence. }
      assert (Hna : nx F a <> Some n) by now apply far_nx.
      rewrite A. split.
      - intros H S. pose proof S as (S0 & S1 & S2 & S3 & S4). destruct (Nat.eq_dec x a) as [->|Hxa].
        { unfold F', f_insert_after in S3. rewrite i_nx, Nat.eqb_refl in S3 by auto. congruence. }
        destruct (Nat.eq_dec x n) as [->|Hxn].
        { unfold F', f_insert_after in S4. rewrite i_pv_self in S4 by auto.
          apply Ha, adj_iff. right. left. congruence. }
        destruct H as [H|[H|[H|H]]]; try contradiction.
        + destruct (still F' x W' Hxn H S) as (T1 & T2 & T3 & T4). apply adj_iff in H. destruct H as [H|[H|(H & [H2|H2])]].
          * apply T1 in H as H'. unfold F', f_insert_after in H'. rewrite i_nx_self in H' by auto. fold F1 in H'. rewrite E1 in H'.
            apply (nx_pv F W) in H. apply (nx_pv F W) in H'. congruence.
          * apply T2 in H. unfold F', f_insert_after in H. rewrite i_pv_self in H by auto. congruence.
          * destruct (T3 H H2) as (T & T'). unfold F', f_insert_after in T, T'. rewrite i_parent, Nat.eqb_refl in T by auto.
            rewrite i_nx_self in T' by auto. fold F1 in T, T'. rewrite E1 in T'. rewrite E2 in T.
            pose proof (proj2 (la_iff F W x n) (conj H H2)). pose proof (proj2 (la_iff F W x a) (conj T T')). congruence.
          * destruct (T4 H H2) as (T & T'). unfold F', f_insert_after in T'. rewrite i_pv_self in T' by auto. discriminate.
        + destruct H as [H|(H & H2)].
          * unfold F', f_insert_after in S4. rewrite i_pv in S4 by auto. fold F1 in S4. rewrite E1, H in S4. cbn [onid_eqb] in S4.
            rewrite Nat.eqb_refl in S4. apply (nx_pv F W) in H. congruence.
          * unfold F', f_insert_after in S2. rewrite i_la in S2 by auto. fold F1 in S2. rewrite E1, E2, H, H2 in S2. cbn [onid_eqb] in S2.
            rewrite Nat.eqb_refl in S2. pose proof (proj2 (la_iff F W x a) (conj H2 H)). congruence.
      - intros S. destruct (Nat.eq_dec x a) as [->|Hxa]; [auto|]. destruct (Nat.eq_dec x n) as [->|Hxn]; [auto|].
        right. right. destruct (in_dec Nat.eq_dec x (adjoining F n)) as [H|H]; [auto|]. right.
        destruct (onid_eqb (nx F a) (Some x)) eqn:E; [left; now apply onid_eqb_eq in E|].
        destruct (onid_eqb (parent_of F a) (Some x)) eqn:Ep; [destruct (nx F a) as [y|] eqn:Ex; [|right; split; [easy|now apply onid_eqb_eq in Ep]]|].
        + exfalso. apply S.
          destruct (far_same x Hxn H) as (T0 & T1 & T2 & T3 & T4). unfold F', f_insert_after. fold F1. unfold nav_same.
          rewrite i_parent, i_fi, i_la, i_nx, i_pv by auto. rewrite E1, E2, E, Ep.
          apply Nat.eqb_neq in Hxn. apply Nat.eqb_neq in Hxa. now rewrite Hxn, Hxa.
        + exfalso. apply S.
          destruct (far_same x Hxn H) as (T0 & T1 & T2 & T3 & T4). unfold F', f_insert_after. fold F1. unfold nav_same.
          rewrite i_parent, i_fi, i_la, i_nx, i_pv by auto. rewrite E1, E2, E, Ep.
          apply Nat.eqb_neq in Hxn. apply Nat.eqb_neq in Hxa. now rewrite Hxn, Hxa.
    Qed.
  End After.

  Section Before.
    Context (a : nid) (Han : a <> n) (C : insert_before_conflict [] a n F = false).
    Let F' := f_insert_before a n F.
    Context (W' : wf_forest F').
    Lemma before_free : ~ In a (adjoining F n) /\ ~ In n (adjoining F n) /\ pv F1 a = pv F a /\ parent_of F1 a = parent_of F a.
    Proof.
      unfold insert_before_conflict in C. apply orb_false_iff in C. destruct C as (C1 & C2). apply orb_false_iff in C1.
      destruct C1 as (_ & C1). apply free2 in C1. destruct C1 as (Ha & Hn).
      destruct (far_same a Han Ha) as (T0 & T1 & T2 & T3 & T4). split; [exact Ha|]. split; [exact Hn|].
      split; [exact T4|exact T0].
    Qed.
    Lemma before_changed x : In x (before_cells a n F) <-> ~ nav_same F F' x.
    Proof.
      destruct before_free as (Ha & Hn & E1 & E2).
      assert (A : In x (before_cells a n F) <-> x = a \/ x = n \/ In x (adjoining F n) \/ pv F a = Some x \/ pv F a = None /\ parent_of F a = Some x).
      { unfold before_cells. cbn [In]. rewrite in_app_iff. fold F1. fold (pv F1 a). rewrite E1, E2.
        destruct (pv F a) as [y|]; cbn; [intuition (try congruence)|]. destruct (parent_of F a); cbn; intuition congruence. }
      assert (Hna : pv F a <> Some n) by now apply far_pv.
      rewrite A. split.
      - intros H S. pose proof S as (S0 & S1 & S2 & S3 & S4). destruct (Nat.eq_dec x a) as [->|Hxa].
        { unfold F', f_insert_before in S4. rewrite b_pv, Nat.eqb_refl in S4 by auto. congruence. }
        destruct (Nat.eq_dec x n) as [->|Hxn].
        { unfold F', f_insert_before in S3. rewrite b_nx_self in S3 by auto.
          apply Ha, adj_iff. left. congruence. }
        destruct H as [H|[H|[H|H]]]; try contradiction.
        + destruct (still F' x W' Hxn H S) as (T1 & T2 & T3 & T4). apply adj_iff in H. destruct H as [H|[H|(H & [H2|H2])]].
          * apply T1 in H. unfold F', f_insert_before in H. rewrite b_nx_self in H by auto. congruence.
          * apply T2 in H as H'. unfold F', f_insert_before in H'. rewrite b_pv_self in H' by auto. fold F1 in H'. rewrite E1 in H'.
            apply (nx_pv F W) in H. apply (nx_pv F W) in H'. congruence.
          * destruct (T3 H H2) as (T & T'). unfold F', f_insert_before in T'. rewrite b_nx_self in T' by auto. discriminate.
          * destruct (T4 H H2) as (T & T'). unfold F', f_insert_before in T, T'. rewrite b_parent, Nat.eqb_refl in T by auto.
            rewrite b_pv_self in T' by auto. fold F1 in T, T'. rewrite E1 in T'. rewrite E2 in T.
            pose proof (proj2 (fi_iff F W x n) (conj H H2)). pose proof (proj2 (fi_iff F W x a) (conj T T')). congruence.
        + destruct H as [H|(H & H2)].
          * unfold F', f_insert_before in S3. rewrite b_nx in S3 by auto. fold F1 in S3. rewrite E1, H in S3. cbn [onid_eqb] in S3.
            rewrite Nat.eqb_refl in S3. apply (nx_pv F W) in H. congruence.
          * unfold F', f_insert_before in S1. rewrite b_fi in S1 by auto. fold F1 in S1. rewrite E1, E2, H, H2 in S1. cbn [onid_eqb] in S1.
            rewrite Nat.eqb_refl in S1. pose proof (proj2 (fi_iff F W x a) (conj H2 H)). congruence.
      - intros S. destruct (Nat.eq_dec x a) as [->|Hxa]; [auto|]. destruct (Nat.eq_dec x n) as [->|Hxn]; [auto|].
        right. right. destruct (in_dec Nat.eq_dec x (adjoining F n)) as [H|H]; [auto|]. right.
        destruct (onid_eqb (pv F a) (Some x)) eqn:E; [left; now apply onid_eqb_eq in E|].
        destruct (onid_eqb (parent_of F a) (Some x)) eqn:Ep; [destruct (pv F a) as [y|] eqn:Ex; [|right; split; [easy|now apply onid_eqb_eq in Ep]]|].
        + exfalso. apply S.
          destruct (far_same x Hxn H) as (T0 & T1 & T2 & T3 & T4). unfold F', f_insert_before. fold F1. unfold nav_same.
          rewrite b_parent, b_fi, b_la, b_nx, b_pv by auto. rewrite E1, E2, E, Ep.
          apply Nat.eqb_neq in Hxn. apply Nat.eqb_neq in Hxa. now rewrite Hxn, Hxa.
        + exfalso. apply S.
          destruct (far_same x Hxn H) as (T0 & T1 & T2 & T3 & T4). unfold F', f_insert_before. fold F1. unfold nav_same.
          rewrite b_parent, b_fi, b_la, b_nx, b_pv by auto. rewrite E1, E2, E, Ep.
          apply Nat.eqb_neq in Hxn. apply Nat.eqb_neq in Hxa. now rewrite Hxn, Hxa.
    Qed.
  End Before.
End Changed.

(* ---- the outcome with guards, from the outcome without *)
Definition guarded_links (L : links) (own G : list nid) (free held : res links) : Prop :=
  (forall q, free = Panic q -> held = Panic q) /\
  (forall L', free = Ok L' ->
     ((forall x, In x G -> ~ In x own /\ same_links L L' x) -> held = Ok L') /\
     ((exists x, In x G /\ (In x own \/ ~ same_links L L' x)) -> held = Panic PBorrow)).

Lemma guarded_of (L : links) (F F' : forest) (G own cells : list nid) (c0 : bool) (r0 r : res links) (P : links -> Prop) :
  Rep L F ->
  (if c0 then r0 = Panic PBorrow else exists L', r0 = Ok L' /\ Rep L' F' /\ P L') ->
  (if c0 || existsb (fun x => mem x G) cells then r = Panic PBorrow else exists L', r = Ok L' /\ Rep L' F' /\ P L') ->
  (forall L', r = Ok L' -> r0 = Ok L') ->
  (c0 = false -> wf_forest F' -> forall x, In x cells <-> In x own \/ ~ nav_same F F' x) ->
  guarded_links L own G r0 r.
Proof.
  intros R H0 H Hless Hcells. destruct c0; cbn [orb] in H.
  { split; [|intros L' E; congruence]. intros q E. congruence. }
  destruct H0 as (L0 & H0 & R0 & _). specialize (Hcells eq_refl (r_wf _ _ R0)).
  split; [intros q E; congruence|]. intros L' E. replace L' with L0 in * by congruence.
  assert (S : forall x, same_links L L0 x <-> nav_same F F' x) by (intros x; now apply same_nav).
  destruct (existsb (fun x => mem x G) cells) eqn:Ex.
  - split; [|intros _; exact H]. intros Hall. exfalso. apply existsb_exists in Ex. destruct Ex as (x & Hx & Hm).
    apply mem_In in Hm. apply Hcells in Hx. destruct (Hall x Hm) as (A & B). apply S in B. tauto.
  - destruct H as (L2 & H & _). pose proof (Hless L2 H) as E2. split; [congruence|].
    intros (x & Hx & Hc). exfalso. assert (In x cells) by (apply Hcells; rewrite <- S; exact Hc).
    assert (existsb (fun x => mem x G) cells = true); [|congruence].
    apply existsb_exists. exists x. split; [easy|]. now apply mem_In.
Qed.

Theorem append_guarded G p n L F : Rep L F -> guarded_links L [] G (append [] p n L) (append G p n L).
Proof.
  intros R. pose proof (append_refines [] p n L F R) as H0. pose proof (append_refines G p n L F R) as H.
  destruct (Nat.eqb_spec p n) as [E|E].
  { rewrite H0, H. split; [auto|discriminate]. }
  rewrite append_conflict_cells in H. eapply guarded_of; [exact R|exact H0|exact H|apply append_less|]. intros C W' x. rewrite (append_changed F (r_wf _ _ R) n p C W'). cbn. tauto.
Qed.
Theorem prepend_guarded G p n L F : Rep L F -> guarded_links L [] G (prepend [] p n L) (prepend G p n L).
Proof.
  intros R. pose proof (prepend_refines [] p n L F R) as H0. pose proof (prepend_refines G p n L F R) as H.
  destruct (Nat.eqb_spec p n) as [E|E].
  { rewrite H0, H. split; [auto|discriminate]. }
  rewrite prepend_conflict_cells in H. eapply guarded_of; [exact R|exact H0|exact H|apply prepend_less|]. intros C W' x. rewrite (prepend_changed F (r_wf _ _ R) n p C W'). cbn. tauto.
Qed.
Theorem insert_after_guarded G p n L F : Rep L F -> guarded_links L [] G (insert_after [] p n L) (insert_after G p n L).
Proof.
  intros R. pose proof (insert_after_refines [] p n L F R) as H0. pose proof (insert_after_refines G p n L F R) as H.
  destruct (Nat.eqb_spec p n) as [E|E].
  { rewrite H0, H. split; [auto|discriminate]. }
  rewrite after_conflict_cells in H. eapply guarded_of; [exact R|exact H0|exact H|apply insert_after_less|]. intros C W' x. rewrite (after_changed F (r_wf _ _ R) n p E C W'). cbn. tauto.
Qed.
Theorem insert_before_guarded G p n L F : Rep L F -> guarded_links L [] G (insert_before [] p n L) (insert_before G p n L).
Proof.
  intros R. pose proof (insert_before_refines [] p n L F R) as H0. pose proof (insert_before_refines G p n L F R) as H.
  destruct (Nat.eqb_spec p n) as [E|E].
  { rewrite H0, H. split; [auto|discriminate]. }
  rewrite before_conflict_cells in H. eapply guarded_of; [exact R|exact H0|exact H|apply insert_before_less|]. intros C W' x. rewrite (before_changed F (r_wf _ _ R) n p E C W'). cbn. tauto.
Qed.
Theorem detach_guarded G n L F : Rep L F -> guarded_links L [n] G (detach [] n L) (detach G n L).
Proof.
  intros R. pose proof (detach_refines [] n L F R) as H0. pose proof (detach_refines G n L F R) as H.
  change (mem n []) with false in H0. cbn [orb] in H0. change (n :: G) with ([n] ++ G) in H. rewrite existsb_mem_app in H.
  eapply (guarded_of L F _ G [n] (n :: adjoining F n)); [exact R|exact H0| |apply detach_less|].
  - cbn [existsb]. destruct (mem n G), (existsb (fun x => mem x [n]) _), (existsb (fun x => mem x G) _); exact H.
  - intros C W' x. assert (Hn : ~ In n (adjoining F n)).
    { intros Hn. assert (existsb (fun x => mem x [n]) (adjoining F n) = true); [|congruence].
      apply existsb_exists. exists n. split; [easy|]. apply mem_In. now left. }
    destruct (Nat.eq_dec x n) as [->|Hx]; [cbn; tauto|]. rewrite <- (detach_changed F (r_wf _ _ R) n x Hn Hx). cbn. tauto.
Qed.
