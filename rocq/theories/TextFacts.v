(* Facts about strings for the text proofs. *)
From Coq Require Import String List Bool PeanoNat NArith Lia.
From Verif Require Import Base Ids Data Attrs NodeApi ForestSpec Text TextSpec.
Import ListNotations.
Open Scope N_scope.
Open Scope list_scope.

(* ---- trim *)
Lemma to_space_white c : to_space c = if white c then 32 else c.
Proof.
  unfold to_space, white. destruct (N.eqb_spec c 32) as [->|]; [reflexivity|].
  destruct (N.eqb_spec c 9), (N.eqb_spec c 10), (N.eqb_spec c 13); reflexivity.
Qed.
Lemma to_space_idem c : to_space (to_space c) = to_space c.
Proof. rewrite !to_space_white. destruct (white c) eqn:E; [reflexivity|now rewrite E]. Qed.
Lemma spaced_to s : spaced s = map to_space s.
Proof. unfold spaced. apply map_ext. intros c. now rewrite to_space_white. Qed.

Lemma trim_preserve_loop s : forall p, trim_loop p s Preserve = spaced s.
Proof. induction s as [|c s IH]; intros p; [easy|]. cbn [trim_loop is_default andb spaced map]. rewrite IH, to_space_white. reflexivity. Qed.
Lemma trim_preserve s : trim s Preserve = spaced s.
Proof. apply trim_preserve_loop. Qed.

(* collapse, seen from the left *)
Fixpoint collapse_from (prev : chr) (s : str) : str :=
  match s with
  | [] => []
  | c :: t => if (c =? 32) && (c =? prev) then collapse_from prev t else c :: collapse_from c t
  end.
Lemma trim_default_loop s : forall p, trim_loop p s Default = collapse_from p (spaced s).
Proof.
  induction s as [|c s IH]; intros p; [easy|]. cbn [trim_loop is_default andb spaced map collapse_from].
  rewrite <- to_space_white. rewrite !IH. reflexivity.
Qed.
Lemma collapse_from_eq s : forall p, (p = 32 -> collapse_from p s = match collapse (p :: s) with _ :: r => r | [] => [] end) /\
  (p <> 32 -> collapse_from p s = collapse s).
Proof.
  induction s as [|c s IH]; intros p; [easy|]. split; intros Hp.
  - subst p. cbn [collapse_from]. destruct (N.eqb_spec c 32) as [->|Hc].
    + cbn [andb N.eqb Pos.eqb]. rewrite (proj1 (IH 32) eq_refl). cbn [collapse N.eqb Pos.eqb andb]. reflexivity.
    + cbn [andb]. cbn [collapse]. cbn [N.eqb Pos.eqb andb]. apply N.eqb_neq in Hc as Hc'. rewrite Hc'. cbn [andb].
      rewrite (proj2 (IH c) Hc). destruct s as [|d s]; reflexivity.
  - cbn [collapse_from]. destruct (N.eqb_spec c 32) as [->|Hc].
    + apply N.eqb_neq in Hp as Hp'. rewrite N.eqb_sym, Hp'. cbn [andb]. rewrite (proj1 (IH 32) eq_refl). 
      assert (G : forall s : str, exists r : str, collapse ((32 : chr) :: s) = 32 :: r).
      { clear. induction s as [|d s IH]; [now exists []|]. cbn [collapse]. destruct (N.eqb_spec d 32) as [->|].
        - cbn [N.eqb Pos.eqb andb]. apply IH.
        - cbn [andb]. eexists. reflexivity. }
      destruct (G s) as (r & Er). transitivity (32 :: r); [|exact (eq_sym Er)]. f_equal.
      change (match collapse ((32 : chr) :: s) with [] => [] | _ :: r0 => r0 end = r). now rewrite Er.
    + cbn [andb]. rewrite (proj2 (IH c) Hc). cbn [collapse]. apply N.eqb_neq in Hc as Hc'. rewrite Hc'. cbn [andb].
      destruct s; reflexivity.
Qed.
Lemma trim_default s : trim s Default = collapse (spaced s).
Proof. unfold trim. rewrite trim_default_loop. apply (collapse_from_eq (spaced s) 48). easy. Qed.

Lemma spaced_idem s : spaced (spaced s) = spaced s.
Proof. rewrite !spaced_to, map_map. apply map_ext, to_space_idem. Qed.
Lemma spaced_app a b : spaced (a ++ b) = spaced a ++ spaced b.
Proof. apply map_app. Qed.

(* ---- no double spaces, structurally *)
Fixpoint ok2 (s : str) : bool :=
  match s with
  | [] => true
  | c :: t => match t with d :: _ => negb ((c =? 32) && (d =? 32)) && ok2 t | [] => true end
  end.
Lemma ok2_cons c d t : ok2 (c :: d :: t) = negb ((c =? 32) && (d =? 32)) && ok2 (d :: t).
Proof. reflexivity. Qed.
Lemma collapse_cons c d t : collapse (c :: d :: t) = if (c =? 32) && (d =? 32) then collapse (d :: t) else c :: collapse (d :: t).
Proof. reflexivity. Qed.
Lemma collapse_hd s : hd_error (collapse s) = hd_error s.
Proof.
  induction s as [|c s IH]; [easy|]. destruct s as [|d s]; [easy|]. rewrite collapse_cons.
  destruct (N.eqb_spec c 32) as [->|]; destruct (N.eqb_spec d 32) as [->|]; cbn [andb]; try reflexivity. exact IH.
Qed.
Lemma collapse_ok2 s : ok2 (collapse s) = true.
Proof.
  induction s as [|c s IH]; [easy|]. destruct s as [|d s]; [easy|]. rewrite collapse_cons.
  destruct ((c =? 32) && (d =? 32)) eqn:E; [easy|]. pose proof (collapse_hd (d :: s)) as H.
  destruct (collapse (d :: s)) as [|x r]; [easy|]. injection H as ->. rewrite ok2_cons, E. exact IH.
Qed.
Lemma collapse_id s : ok2 s = true -> collapse s = s.
Proof.
  induction s as [|c s IH]; [easy|]. destruct s as [|d s]; [easy|]. rewrite ok2_cons, collapse_cons, andb_true_iff.
  intros (H1 & H2). apply negb_true_iff in H1. rewrite H1. f_equal. now apply IH.
Qed.
Lemma ok2_no_double s : ok2 s = true <-> no_double s.
Proof.
  unfold no_double. split.
  - intros H a. revert s H. induction a as [|x a IH]; intros s H b E.
    + subst s. cbn [app] in H. rewrite ok2_cons in H. discriminate.
    + subst s. cbn [app] in H. destruct (a ++ 32 :: 32 :: b) as [|y r] eqn:Er; [now destruct a|].
      rewrite ok2_cons in H. apply andb_true_iff in H. apply (IH (y :: r)) with (b := b); [easy|]. now rewrite <- Er.
  - intros H. induction s as [|c s IH]; [easy|]. destruct s as [|d s]; [easy|]. rewrite ok2_cons.
    apply andb_true_iff. split.
    + apply negb_true_iff. destruct (N.eqb_spec c 32) as [->|]; [|easy]. destruct (N.eqb_spec d 32) as [->|]; [|easy].
      exfalso. now apply (H [] s).
    + apply IH. intros a b E. apply (H (c :: a) b). now rewrite E.
Qed.
Lemma spaced_cons c s : spaced (c :: s) = (if white c then 32 else c) :: spaced s.
Proof. reflexivity. Qed.
Lemma spaced_collapse s : spaced s = s -> spaced (collapse s) = collapse s.
Proof.
  induction s as [|c s IH]; [easy|]. destruct s as [|d s]; [easy|]. intros H. rewrite collapse_cons.
  rewrite spaced_cons in H. injection H as H1 H2 H3.
  assert (Hd : spaced (d :: s) = d :: s) by (rewrite spaced_cons; now rewrite H2, H3).
  destruct ((c =? 32) && (d =? 32)); [now apply IH|]. rewrite spaced_cons, (IH Hd), H1. reflexivity.
Qed.
Lemma trim_idem s m : trim (trim s m) m = trim s m.
Proof.
  destruct m.
  - rewrite !trim_default. rewrite spaced_collapse by apply spaced_idem. apply collapse_id, collapse_ok2.
  - rewrite !trim_preserve. apply spaced_idem.
Qed.

(* ---- bytes *)
Lemma utf8_char_hd c : exists b r, utf8_char c = b :: r /\ ((b =? 32) = (c =? 32)) /\ (c = 32 -> r = []).
Proof.
  unfold utf8_char. destruct (N.ltb_spec c 128).
  { exists c, []. repeat split. }
  destruct (N.ltb_spec c 2048); [|destruct (N.ltb_spec c 65536)].
  all: eexists _, _; split; [reflexivity|]; split; [|lia].
  all: transitivity false; [apply N.eqb_neq; generalize (c / 64), (c / 4096), (c / 262144); lia|symmetry; apply N.eqb_neq; lia].
Qed.
Lemma utf8_char_last c : exists b r, utf8_char c = r ++ [b] /\ ((b =? 32) = (c =? 32)).
Proof.
  unfold utf8_char. destruct (N.ltb_spec c 128).
  { exists c, []. split; reflexivity. }
  assert (Hb : (128 + c mod 64 =? 32) = (c =? 32)).
  { transitivity false; [apply N.eqb_neq; generalize (c mod 64); lia|symmetry; apply N.eqb_neq; lia]. }
  destruct (N.ltb_spec c 2048); [|destruct (N.ltb_spec c 65536)].
  - eexists _, [_]. split; [reflexivity|exact Hb].
  - eexists _, [_; _]. split; [reflexivity|exact Hb].
  - eexists _, [_; _; _]. split; [reflexivity|exact Hb].
Qed.
Lemma utf8_app a b : utf8 (a ++ b) = utf8 a ++ utf8 b.
Proof. apply flat_map_app. Qed.
Lemma first_space s : is_space (first_byte s) = true <-> exists t, s = 32 :: t.
Proof.
  unfold first_byte. destruct s as [|c s].
  - split; [easy|]. now intros (t & H).
  - cbn [utf8 flat_map]. destruct (utf8_char_hd c) as (b & r & -> & E & _). cbn [app hd_error is_space]. rewrite E, N.eqb_eq.
    split; [intros ->; now exists s|]. intros (t & H). now injection H.
Qed.
Lemma last_space s : is_space (last_byte s) = true <-> exists t, s = t ++ [32].
Proof.
  unfold last_byte. induction s as [|c s _] using rev_ind.
  - split; [easy|]. intros (t & H). now destruct t.
  - rewrite utf8_app. cbn [utf8 flat_map]. rewrite app_nil_r. destruct (utf8_char_last c) as (b & r & -> & E).
    rewrite app_assoc, rev_app_distr. cbn [rev app hd_error is_space]. rewrite E, N.eqb_eq.
    split; [intros ->; now exists s|]. intros (t & H). apply app_inj_tail in H. easy.
Qed.
Lemma utf8_length s : length (utf8 s) = 0%nat <-> s = [].
Proof.
  split; [|now intros ->]. destruct s as [|c s]; [easy|]. cbn [utf8 flat_map].
  destruct (utf8_char_hd c) as (b & r & -> & _). easy.
Qed.
Lemma utf8_one s : length (utf8 s) = 1%nat -> exists c, s = [c].
Proof.
  destruct s as [|c s]; [easy|]. cbn [utf8 flat_map]. destruct (utf8_char_hd c) as (b & r & -> & _).
  cbn [app length]. rewrite app_length. intros H. exists c. f_equal. apply utf8_length. unfold utf8. lia.
Qed.
Lemma remove_first_space t : remove_first (32 :: t) = Ok t.
Proof. reflexivity. Qed.
Lemma remove_last_snoc t c : remove_last (t ++ [c]) = t.
Proof. apply removelast_last. Qed.
Lemma is_empty_iff s : is_empty s = true <-> s = [].
Proof. now destruct s. Qed.

(* ---- shortened and whitened *)
Lemma shortened_refl s : shortened s s.
Proof. exists [], []. rewrite app_nil_r. easy. Qed.
Lemma shortened_trans a b c : shortened a b -> shortened b c -> shortened a c.
Proof.
  intros (x1 & y1 & -> & Hx1 & Hy1) (x2 & y2 & -> & Hx2 & Hy2). exists (x1 ++ x2), (y2 ++ y1).
  split; [now rewrite <- !app_assoc|]. split; apply Forall_app; easy.
Qed.
Lemma shortened_first t : shortened (32 :: t) t.
Proof. exists [32], []. rewrite app_nil_r. repeat split; auto. Qed.
Lemma shortened_last t : shortened (t ++ [32]) t.
Proof. exists [], [32]. repeat split; auto. Qed.
Lemma whitened_refl s : whitened s s.
Proof. induction s; [apply wh_nil|now apply wh_keep]. Qed.
Lemma whitened_trans a b : whitened a b -> forall c, whitened b c -> whitened a c.
Proof.
  assert (W32 : white 32 = true) by reflexivity.
  induction 1 as [|c o n H IH|c o n Hc H IH|c o n Hc H IH]; intros x Hx.
  - exact Hx.
  - inversion Hx; subst; [apply wh_keep|apply wh_turn|apply wh_drop]; auto.
  - inversion Hx; subst; [apply wh_turn|apply wh_turn|apply wh_drop]; auto.
  - apply wh_drop; auto.
Qed.
Lemma whitened_spaced s : whitened s (spaced s).
Proof.
  induction s as [|c s IH]; [apply wh_nil|]. rewrite spaced_cons. destruct (white c) eqn:E; [now apply wh_turn|now apply wh_keep].
Qed.
Lemma whitened_collapse s : whitened s (collapse s).
Proof.
  induction s as [|c s IH]; [apply wh_nil|]. destruct s as [|d s]; [apply wh_keep, wh_nil|]. rewrite collapse_cons.
  destruct ((c =? 32) && (d =? 32)) eqn:E; [|now apply wh_keep]. apply wh_drop; [|easy].
  apply andb_true_iff in E. destruct E as (E & _). apply N.eqb_eq in E. now subst.
Qed.
Lemma whitened_trim s m : whitened s (trim s m).
Proof.
  destruct m.
  - rewrite trim_default. eapply whitened_trans; [apply whitened_spaced|apply whitened_collapse].
  - rewrite trim_preserve. apply whitened_spaced.
Qed.
Lemma whitened_app a b c d : whitened a b -> whitened c d -> whitened (a ++ c) (b ++ d).
Proof. induction 1; intros Hc; cbn [app]; [easy|apply wh_keep|apply wh_turn|apply wh_drop]; auto. Qed.
Lemma whitened_shortened a b : shortened a b -> whitened a b.
Proof.
  intros (x & y & -> & Hx & Hy).
  assert (G : forall z : str, Forall (fun c => c = 32) z -> whitened z []).
  { induction 1; [apply wh_nil|]. subst. now apply wh_drop. }
  change b with ([] ++ b) at 2. apply whitened_app; [now apply G|]. rewrite <- (app_nil_r b) at 2.
  apply whitened_app; [apply whitened_refl|now apply G].
Qed.

(* ---- normal strings *)
Definition nrm (s : str) : str := rstrip (lstrip (collapse s)).
Lemma collapse_32 s : exists r, collapse (32 :: s) = 32 :: r.
Proof.
  pose proof (collapse_hd (32 :: s)) as H. destruct (collapse (32 :: s)) as [|x r]; [easy|]. injection H as ->. now exists r.
Qed.
Lemma collapse_double a b : collapse (a ++ 32 :: 32 :: b) = collapse (a ++ 32 :: b).
Proof.
  induction a as [|c a IH]; [reflexivity|]. cbn [app]. destruct a as [|d a].
  - cbn [app] in *. rewrite !(collapse_cons c). destruct ((c =? 32) && (32 =? 32)); [easy|]. now f_equal.
  - cbn [app] in *. rewrite !(collapse_cons c). destruct ((c =? 32) && (d =? 32)); [exact IH|f_equal; exact IH].
Qed.
Lemma collapse_app_r a b : collapse (a ++ collapse b) = collapse (a ++ b).
Proof.
  induction a as [|c a IH].
  - cbn [app]. apply collapse_id, collapse_ok2.
  - cbn [app]. destruct a as [|d a].
    + cbn [app] in *. destruct b as [|x b]; [reflexivity|]. pose proof (collapse_hd (x :: b)) as H.
      destruct (collapse (x :: b)) as [|y r] eqn:E; [easy|]. injection H as ->.
      rewrite !collapse_cons. rewrite IH, E. reflexivity.
    + cbn [app] in *. rewrite !collapse_cons, IH. reflexivity.
Qed.
Lemma collapse_app_l a b : collapse (collapse a ++ b) = collapse (a ++ b).
Proof.
  induction a as [|c a IH]; [reflexivity|]. destruct a as [|d a]; [reflexivity|]. rewrite collapse_cons. cbn [app].
  rewrite (collapse_cons c d (a ++ b)). cbn [app] in IH.
  destruct ((c =? 32) && (d =? 32)) eqn:E; [exact IH|]. cbn [app].
  pose proof (collapse_hd (d :: a)) as H. destruct (collapse (d :: a)) as [|y r] eqn:Ec; [easy|]. injection H as ->.
  cbn [app] in *. rewrite collapse_cons, E. now rewrite IH.
Qed.
Lemma nrm_32 s : nrm (32 :: s) = nrm s.
Proof.
  unfold nrm. f_equal. destruct s as [|d s]; [reflexivity|]. rewrite collapse_cons.
  destruct ((32 =? 32) && (d =? 32)); reflexivity.
Qed.
Lemma collapse_rev s : collapse (rev s) = rev (collapse s).
Proof.
  induction s as [|c s IH]; [reflexivity|]. cbn [rev]. destruct s as [|d s]; [reflexivity|].
  assert (G : ok2 (rev (collapse (d :: s))) = true) by (rewrite <- IH; apply collapse_ok2).
  rewrite <- collapse_app_l, IH. rewrite collapse_cons. cbn [rev]. pose proof (collapse_hd (d :: s)) as H.
  pose proof (collapse_ok2 (d :: s)) as Hok.
  destruct (collapse (d :: s)) as [|x r] eqn:Ec; [easy|]. injection H as ->.
  destruct ((c =? 32) && (d =? 32)) eqn:E.
  - apply andb_true_iff in E. destruct E as (E1 & E2). apply N.eqb_eq in E1, E2. subst c d. cbn [rev].
    rewrite <- app_assoc. exact (eq_trans (collapse_double (rev r) []) (collapse_id _ G)).
  - cbn [rev]. apply collapse_id.
    cbn [rev] in G.
    rewrite <- app_assoc. cbn [app]. clear - G E. induction (rev r) as [|x l IH].
    + cbn [app]. rewrite ok2_cons. rewrite andb_comm in E. now rewrite E.
    + cbn [app] in *. destruct l as [|y l].
      * cbn [app] in *. rewrite ok2_cons in *. apply andb_true_iff in G. destruct G as (G1 & G2).
        rewrite G1. rewrite ok2_cons. rewrite andb_comm in E. now rewrite E.
      * cbn [app] in *. rewrite ok2_cons in *. apply andb_true_iff in G. destruct G as (G1 & G2). rewrite G1. now apply IH.
Qed.
Lemma lstrip_snoc s c : lstrip (s ++ [c]) = match lstrip s with [] => if c =? 32 then [] else [c] | _ => lstrip s ++ [c] end.
Proof.
  induction s as [|x s IH]; [cbn; now destruct (c =? 32)|]. cbn [app lstrip]. destruct (x =? 32); [exact IH|reflexivity].
Qed.
Lemma rl_swap s : rstrip (lstrip s) = lstrip (rstrip s).
Proof.
  unfold rstrip. induction s as [|c s IH]; [reflexivity|]. cbn [lstrip rev]. rewrite lstrip_snoc.
  destruct (N.eqb_spec c 32) as [->|Hc].
  - destruct (lstrip (rev s)) as [|x l] eqn:E.
    + exact IH.
    + rewrite rev_app_distr. cbn [rev app lstrip N.eqb Pos.eqb]. rewrite IH. reflexivity.
  - cbn [rev]. rewrite lstrip_snoc. apply N.eqb_neq in Hc as Hc'. rewrite Hc'. destruct (lstrip (rev s)) as [|x l] eqn:E.
    + cbn [rev app lstrip]. now rewrite Hc'.
    + rewrite !rev_app_distr. cbn [rev app lstrip]. now rewrite Hc'.
Qed.
Lemma nrm_rev s : nrm (rev s) = rev (nrm s).
Proof. unfold nrm. rewrite collapse_rev, rl_swap. unfold rstrip. now rewrite rev_involutive, rev_involutive. Qed.
Lemma nrm_snoc s : nrm (s ++ [32]) = nrm s.
Proof.
  rewrite <- (rev_involutive (s ++ [32])), nrm_rev, rev_app_distr. cbn [rev app]. rewrite nrm_32, nrm_rev. apply rev_involutive.
Qed.
Lemma nrm_double a b : nrm (a ++ 32 :: 32 :: b) = nrm (a ++ 32 :: b).
Proof. unfold nrm. now rewrite collapse_double. Qed.
Lemma lstrip_id s : no_lead s -> lstrip s = s.
Proof. intros H. destruct s as [|c s]; [easy|]. cbn. destruct (N.eqb_spec c 32) as [->|]; [exfalso; now apply (H s)|easy]. Qed.
Lemma no_trail_rev s : no_trail s <-> no_lead (rev s).
Proof.
  split.
  - intros H a E. apply (H (rev a)). rewrite <- (rev_involutive s), E. reflexivity.
  - intros H a ->. apply (H (rev a)). now rewrite rev_app_distr.
Qed.
Lemma nrm_id s : ok2 s = true -> no_lead s -> no_trail s -> nrm s = s.
Proof.
  intros H1 H2 H3. unfold nrm. rewrite (collapse_id s H1), (lstrip_id s H2). unfold rstrip.
  rewrite (lstrip_id (rev s)); [apply rev_involutive|]. now apply no_trail_rev.
Qed.
Lemma lstrip_no_lead s : no_lead (lstrip s).
Proof. induction s as [|c s IH]; [easy|]. cbn. destruct (N.eqb_spec c 32) as [->|]; [exact IH|]. intros a E. now injection E. Qed.
Lemma lstrip_suffix s : exists a, s = a ++ lstrip s /\ Forall (fun c => c = 32) a.
Proof.
  induction s as [|c s (a & E & H)]; [now exists []|]. cbn. destruct (N.eqb_spec c 32) as [->|].
  - exists (32 :: a). cbn. split; [congruence|now constructor].
  - now exists [].
Qed.
Lemma ok2_tail c s : ok2 (c :: s) = true -> ok2 s = true.
Proof. destruct s as [|d s]; [easy|]. rewrite ok2_cons, andb_true_iff. tauto. Qed.
Lemma ok2_app_r a b : ok2 (a ++ b) = true -> ok2 b = true.
Proof. induction a as [|c a IH]; [easy|]. cbn [app]. intros H. apply IH. now apply ok2_tail in H. Qed.
Lemma ok2_app_l a b : ok2 (a ++ b) = true -> ok2 a = true.
Proof.
  induction a as [|c a IH]; [easy|]. cbn [app]. intros H. destruct a as [|d a]; [easy|]. cbn [app] in *.
  rewrite ok2_cons in *. apply andb_true_iff in H. destruct H as (H1 & H2). rewrite H1. cbn [andb]. now apply IH.
Qed.
Lemma normal_clean s : no_double (normal s) /\ no_lead (normal s) /\ no_trail (normal s).
Proof.
  unfold normal. set (x := collapse (spaced s)). pose proof (collapse_ok2 (spaced s)) as H. fold x in H.
  split; [|split].
  - apply ok2_no_double. rewrite rl_swap. destruct (lstrip_suffix (rstrip x)) as (a & E & _).
    assert (Hr : ok2 (rstrip x) = true).
    { unfold rstrip. destruct (lstrip_suffix (rev x)) as (b & Eb & _). apply (f_equal (@rev chr)) in Eb.
      rewrite rev_involutive, rev_app_distr in Eb. rewrite Eb in H. now apply ok2_app_l in H. }
    rewrite E in Hr. now apply ok2_app_r in Hr.
  - rewrite rl_swap. apply lstrip_no_lead.
  - apply no_trail_rev. unfold rstrip. rewrite rev_involutive. apply lstrip_no_lead.
Qed.
Lemma normal_nrm s : normal s = nrm (spaced s).
Proof. reflexivity. Qed.

Lemma collapse_concat l : collapse (concat (map collapse l)) = collapse (concat l).
Proof.
  induction l as [|s l IH]; [reflexivity|]. cbn [map concat]. rewrite collapse_app_l, <- collapse_app_r, IH.
  now rewrite collapse_app_r.
Qed.
Lemma nrm_collapse s : nrm (collapse s) = nrm s.
Proof. unfold nrm. now rewrite (collapse_id _ (collapse_ok2 s)). Qed.
Lemma spaced_concat l : spaced (concat l) = concat (map spaced l).
Proof. induction l as [|s l IH]; [reflexivity|]. cbn [map concat]. now rewrite spaced_app, IH. Qed.
Lemma collapse_in c s : c <> 32 -> In c s -> In c (collapse s).
Proof.
  intros Hc. induction s as [|d s IH]; [easy|]. destruct s as [|e s]; [easy|]. rewrite collapse_cons. intros [->|H].
  - destruct ((c =? 32) && (e =? 32)) eqn:E; [|now left]. apply andb_true_iff in E. destruct E as (E & _). now apply N.eqb_eq in E.
  - destruct ((d =? 32) && (e =? 32)); [now apply IH|right; now apply IH].
Qed.
Lemma trim_in c s : white c = false -> In c s -> In c (trim s Default).
Proof.
  intros Hw H. rewrite trim_default. apply collapse_in; [now intros ->|]. unfold spaced. apply in_map_iff. exists c.
  now rewrite Hw.
Qed.

Lemma trim_clean s m : trim s m = clean m s.
Proof. destruct m; [apply trim_default|apply trim_preserve]. Qed.
Lemma trim_in_any c s m : In c s -> white c = false -> In c (trim s m).
Proof.
  intros H Hw. destruct m; [now apply trim_in|]. rewrite trim_preserve. unfold spaced. apply in_map_iff. exists c. now rewrite Hw.
Qed.
