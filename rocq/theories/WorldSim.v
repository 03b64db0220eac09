(* The operations do the same on documents that differ in the handles only. *)
From Coq Require Import List Bool PeanoNat NArith Lia.
From Verif Require Import Base Ids Links Tree Iter Data Attrs Slab NodeApi Doc History World WorldSpec.
Import ListNotations.

(* outcomes that agree *)
Definition rrel {A B} (R : A -> B -> Prop) (r : res A) (r' : res B) : Prop :=
  match r, r' with
  | Ok a, Ok b => R a b
  | Panic p, Panic q => p = q
  | Diverge, Diverge => True
  | _, _ => False
  end.
Lemma rrel_bind {A B A' B'} (R : A -> A' -> Prop) (S : B -> B' -> Prop) r r' k k' :
  rrel R r r' -> (forall a b, R a b -> rrel S (k a) (k' b)) -> rrel S (bind r k) (bind r' k').
Proof. intros H Hk. destruct r, r'; cbn in *; try easy. now apply Hk. Qed.

Definition injective (f : nid -> nid) : Prop := forall a b, f a = f b -> a = b.

Section Sim.
  Context (f : nid -> nid) (Hf : injective f) (V0 : dom).

  Definition image (m : nid) : Prop := exists n, m = f n.

  (* one field of the links *)
  Definition fsim (h h' h0 : nid -> option nid) : Prop :=
    (forall n, h' (f n) = option_map f (h n)) /\ (forall m, ~ image m -> h' m = h0 m).

  Record LS (L L' : links) : Prop := {
    ls_root   : fsim (l_root L) (l_root L') (l_root (lk V0));
    ls_parent : fsim (l_parent L) (l_parent L') (l_parent (lk V0));
    ls_first  : fsim (l_first L) (l_first L') (l_first (lk V0));
    ls_last   : fsim (l_last L) (l_last L') (l_last (lk V0));
    ls_prev   : fsim (l_prev L) (l_prev L') (l_prev (lk V0));
    ls_next   : fsim (l_next L) (l_next L') (l_next (lk V0))
  }.

  Lemma f_eqb a b : Nat.eqb (f a) (f b) = Nat.eqb a b.
  Proof.
    destruct (Nat.eqb_spec a b) as [->|H]; [apply Nat.eqb_refl|]. apply Nat.eqb_neq. intros E. now apply Hf in E.
  Qed.
  Lemma mem_map n G : mem (f n) (map f G) = mem n G.
  Proof. unfold mem. induction G as [|x G IH]; cbn; [easy|]. now rewrite f_eqb, IH. Qed.

  Lemma fsim_upd h h' h0 n v : fsim h h' h0 -> fsim (upd h n v) (upd h' (f n) (option_map f v)) h0.
  Proof.
    intros (H & H0). split.
    - intros m. unfold upd. rewrite f_eqb. now destruct (Nat.eqb m n).
    - intros m Hm. unfold upd. destruct (Nat.eqb_spec m (f n)) as [->|]; [|now apply H0].
      exfalso. apply Hm. now exists n.
  Qed.

  Lemma ls_set_root n v L L' : LS L L' -> LS (set_root n v L) (set_root (f n) (option_map f v) L').
  Proof. intros []. split; cbn; auto using fsim_upd. Qed.
  Lemma ls_set_parent n v L L' : LS L L' -> LS (set_parent n v L) (set_parent (f n) (option_map f v) L').
  Proof. intros []. split; cbn; auto using fsim_upd. Qed.
  Lemma ls_set_first n v L L' : LS L L' -> LS (set_first n v L) (set_first (f n) (option_map f v) L').
  Proof. intros []. split; cbn; auto using fsim_upd. Qed.
  Lemma ls_set_last n v L L' : LS L L' -> LS (set_last n v L) (set_last (f n) (option_map f v) L').
  Proof. intros []. split; cbn; auto using fsim_upd. Qed.
  Lemma ls_set_prev n v L L' : LS L L' -> LS (set_prev n v L) (set_prev (f n) (option_map f v) L').
  Proof. intros []. split; cbn; auto using fsim_upd. Qed.
  Lemma ls_set_next n v L L' : LS L L' -> LS (set_next n v L) (set_next (f n) (option_map f v) L').
  Proof. intros []. split; cbn; auto using fsim_upd. Qed.

  Lemma g_root L L' : LS L L' -> forall n, l_root L' (f n) = option_map f (l_root L n).
  Proof. intros []. apply ls_root0. Qed.
  Lemma g_parent L L' : LS L L' -> forall n, l_parent L' (f n) = option_map f (l_parent L n).
  Proof. intros []. apply ls_parent0. Qed.
  Lemma g_first L L' : LS L L' -> forall n, l_first L' (f n) = option_map f (l_first L n).
  Proof. intros []. apply ls_first0. Qed.
  Lemma g_last L L' : LS L L' -> forall n, l_last L' (f n) = option_map f (l_last L n).
  Proof. intros []. apply ls_last0. Qed.
  Lemma g_prev L L' : LS L L' -> forall n, l_prev L' (f n) = option_map f (l_prev L n).
  Proof. intros []. apply ls_prev0. Qed.
  Lemma g_next L L' : LS L L' -> forall n, l_next L' (f n) = option_map f (l_next L n).
  Proof. intros []. apply ls_next0. Qed.

  (* the value of a match on related options *)
  Lemma rrel_match {A B} (R : A -> B -> Prop) o k1 k2 k1' k2' :
    (forall x, o = Some x -> rrel R (k1 x) (k1' (f x))) -> (o = None -> rrel R k2 k2') ->
    rrel R (match o with Some x => k1 x | None => k2 end)
           (match option_map f o with Some x => k1' x | None => k2' end).
  Proof. intros H1 H2. destruct o; cbn; [now apply H1|now apply H2]. Qed.
  Lemma rrel_borrow {A B} (R : A -> B -> Prop) G n k k' : rrel R k k' ->
    rrel R (borrow_mut G n k) (borrow_mut (map f G) (f n) k').
  Proof. intros H. unfold borrow_mut. rewrite mem_map. now destruct (mem n G). Qed.

  Ltac setters := repeat first
    [ assumption
    | apply ls_set_root | apply ls_set_parent | apply ls_set_first | apply ls_set_last | apply ls_set_prev | apply ls_set_next
    | match goal with
      | |- LS (set_root _ None _) _ => refine (ls_set_root _ None _ _ _)
      | |- LS (set_parent _ None _) _ => refine (ls_set_parent _ None _ _ _)
      | |- LS (set_first _ None _) _ => refine (ls_set_first _ None _ _ _)
      | |- LS (set_last _ None _) _ => refine (ls_set_last _ None _ _ _)
      | |- LS (set_prev _ None _) _ => refine (ls_set_prev _ None _ _ _)
      | |- LS (set_next _ None _) _ => refine (ls_set_next _ None _ _ _)
      | |- LS (set_root _ (Some ?x) _) _ => refine (ls_set_root _ (Some x) _ _ _)
      | |- LS (set_parent _ (Some ?x) _) _ => refine (ls_set_parent _ (Some x) _ _ _)
      | |- LS (set_first _ (Some ?x) _) _ => refine (ls_set_first _ (Some x) _ _ _)
      | |- LS (set_last _ (Some ?x) _) _ => refine (ls_set_last _ (Some x) _ _ _)
      | |- LS (set_prev _ (Some ?x) _) _ => refine (ls_set_prev _ (Some x) _ _ _)
      | |- LS (set_next _ (Some ?x) _) _ => refine (ls_set_next _ (Some x) _ _ _)
      end ].

  Lemma detach_data_sim G n L L' : LS L L' -> rrel LS (detach_data G n L) (detach_data (map f G) (f n) L').
  Proof.
    intros H. unfold detach_data. rewrite (g_parent L L' H), (g_prev L L' H), (g_next L L' H).
    eapply (rrel_bind LS).
    - apply rrel_match; intros.
      + apply rrel_borrow. cbn [rrel]. setters.
      + apply rrel_match; intros; [apply rrel_borrow|]; cbn [rrel]; setters.
    - intros L1 L1' H1. apply rrel_match; intros.
      + apply rrel_borrow. cbn [rrel]. setters.
      + apply rrel_match; intros; [apply rrel_borrow|]; cbn [rrel]; setters.
  Qed.
  Lemma detach_sim G n L L' : LS L L' -> rrel LS (detach G n L) (detach (map f G) (f n) L').
  Proof. intros H. unfold detach. apply rrel_borrow. now apply (detach_data_sim (n :: G)). Qed.

  Lemma append_sim G p n L L' : LS L L' -> rrel LS (append G p n L) (append (map f G) (f p) (f n) L').
  Proof.
    intros H. unfold append. rewrite f_eqb. destruct (Nat.eqb p n); [easy|].
    apply rrel_borrow. apply (rrel_borrow LS (p :: G)).
    eapply (rrel_bind LS); [exact (detach_data_sim (n :: p :: G) n L L' H)|]. clear L L' H. intros L L' H.
    cbv zeta.
    assert (H1 : LS (set_parent n (Some p) (set_root n (root_or_self L p) L))
                    (set_parent (f n) (Some (f p)) (set_root (f n) (root_or_self L' (f p)) L'))).
    { unfold root_or_self. rewrite (g_root L L' H). destruct (l_root L p); cbn [option_map]; setters. }
    revert H1. generalize (set_parent n (Some p) (set_root n (root_or_self L p) L)) as M.
    generalize (set_parent (f n) (Some (f p)) (set_root (f n) (root_or_self L' (f p)) L')) as M'. intros M' M H1.
    rewrite (g_last M M' H1 p). destruct (l_last M p) as [lc|] eqn:E; cbn [option_map].
    - apply (rrel_borrow LS (p :: G)).
      assert (H2 : LS (set_last p (Some n) (set_prev n (Some lc) (set_last p None M)))
                      (set_last (f p) (Some (f n)) (set_prev (f n) (Some (f lc)) (set_last (f p) None M')))) by setters.
      rewrite (g_next _ _ H2 lc). apply rrel_match; intros; cbn [rrel]; [easy|]. setters.
    - assert (H2 : LS (set_last p (Some n) (set_last p None M))
                      (set_last (f p) (Some (f n)) (set_last (f p) None M'))) by setters.
      rewrite (g_first _ _ H2 p). apply rrel_match; intros; cbn [rrel]; [easy|]. setters.
  Qed.

  Lemma prepend_sim G p n L L' : LS L L' -> rrel LS (prepend G p n L) (prepend (map f G) (f p) (f n) L').
  Proof.
    intros H. unfold prepend. rewrite f_eqb. destruct (Nat.eqb p n); [easy|].
    apply rrel_borrow. apply (rrel_borrow LS (p :: G)).
    eapply (rrel_bind LS); [exact (detach_data_sim (n :: p :: G) n L L' H)|]. clear L L' H. intros L L' H.
    cbv zeta.
    assert (H1 : LS (set_parent n (Some p) (set_root n (root_or_self L p) L))
                    (set_parent (f n) (Some (f p)) (set_root (f n) (root_or_self L' (f p)) L'))).
    { unfold root_or_self. rewrite (g_root L L' H). destruct (l_root L p); cbn [option_map]; setters. }
    revert H1. generalize (set_parent n (Some p) (set_root n (root_or_self L p) L)) as M.
    generalize (set_parent (f n) (Some (f p)) (set_root (f n) (root_or_self L' (f p)) L')) as M'. intros M' M H1.
    eapply (rrel_bind LS); [|intros; cbn [rrel]; setters].
    assert (H2 : LS (set_first p None M) (set_first (f p) None M')) by setters.
    rewrite (g_first M M' H1 p). destruct (l_first M p) as [lc|] eqn:E; cbn [option_map].
    - apply (rrel_borrow LS (n :: p :: G)).
      rewrite (g_prev _ _ H2 lc). apply rrel_match; intros; cbn [rrel]; [easy|]. setters.
    - rewrite (g_first _ _ H2 p). apply rrel_match; intros; cbn [rrel]; [easy|]. setters.
  Qed.

  Lemma insert_after_sim G p n L L' : LS L L' -> rrel LS (insert_after G p n L) (insert_after (map f G) (f p) (f n) L').
  Proof.
    intros H. unfold insert_after. rewrite f_eqb. destruct (Nat.eqb p n); [easy|].
    apply rrel_borrow. apply (rrel_borrow LS (p :: G)).
    eapply (rrel_bind LS); [exact (detach_data_sim (n :: p :: G) n L L' H)|]. clear L L' H. intros L L' H.
    cbv zeta.
    assert (H0 : LS (set_root n (l_root L p) L) (set_root (f n) (l_root L' (f p)) L')).
    { rewrite (g_root L L' H). setters. }
    revert H0. generalize (set_root n (l_root L p) L) as M0. generalize (set_root (f n) (l_root L' (f p)) L') as M0'.
    intros M0' M0 H0.
    assert (H1 : LS (set_prev n (Some p) (set_parent n (l_parent M0 p) M0))
                    (set_prev (f n) (Some (f p)) (set_parent (f n) (l_parent M0' (f p)) M0'))).
    { rewrite (g_parent M0 M0' H0). setters. }
    revert H1. generalize (set_prev n (Some p) (set_parent n (l_parent M0 p) M0)) as M.
    generalize (set_prev (f n) (Some (f p)) (set_parent (f n) (l_parent M0' (f p)) M0')) as M'. intros M' M H1.
    eapply (rrel_bind LS); [|intros; cbn [rrel]; setters].
    assert (H2 : LS (set_next p None M) (set_next (f p) None M')) by setters.
    rewrite (g_next M M' H1 p). destruct (l_next M p) as [lc|] eqn:E; cbn [option_map].
    - apply (rrel_borrow LS (n :: p :: G)).
      rewrite (g_prev _ _ H2 lc). apply rrel_match; [intros x _|easy].
      rewrite f_eqb. destruct (Nat.eqb x p); cbn [rrel]; [|easy]. setters.
    - rewrite (g_parent _ _ H2 p). apply rrel_match; [intros x _|intros _; cbn [rrel]; setters].
      apply (rrel_borrow LS (n :: p :: G)). cbn [rrel]. setters.
  Qed.

  Lemma insert_before_sim G p n L L' : LS L L' -> rrel LS (insert_before G p n L) (insert_before (map f G) (f p) (f n) L').
  Proof.
    intros H. unfold insert_before. rewrite f_eqb. destruct (Nat.eqb p n); [easy|].
    apply rrel_borrow. apply (rrel_borrow LS (p :: G)).
    eapply (rrel_bind LS); [exact (detach_data_sim (n :: p :: G) n L L' H)|]. clear L L' H. intros L L' H.
    cbv zeta.
    assert (H0 : LS (set_root n (l_root L p) L) (set_root (f n) (l_root L' (f p)) L')).
    { rewrite (g_root L L' H). setters. }
    revert H0. generalize (set_root n (l_root L p) L) as M0. generalize (set_root (f n) (l_root L' (f p)) L') as M0'.
    intros M0' M0 H0.
    assert (H1 : LS (set_next n (Some p) (set_parent n (l_parent M0 p) M0))
                    (set_next (f n) (Some (f p)) (set_parent (f n) (l_parent M0' (f p)) M0'))).
    { rewrite (g_parent M0 M0' H0). setters. }
    revert H1. generalize (set_next n (Some p) (set_parent n (l_parent M0 p) M0)) as M.
    generalize (set_next (f n) (Some (f p)) (set_parent (f n) (l_parent M0' (f p)) M0')) as M'. intros M' M H1.
    rewrite (g_prev M M' H1 p). destruct (l_prev M p) as [lc|] eqn:E; cbn [option_map].
    - apply (rrel_borrow LS (p :: G)).
      assert (H2 : LS (set_prev p (Some n) (set_prev n (Some lc) (set_prev p None M)))
                      (set_prev (f p) (Some (f n)) (set_prev (f n) (Some (f lc)) (set_prev (f p) None M')))) by setters.
      rewrite (g_next _ _ H2 lc). apply rrel_match; [intros x _|easy].
      rewrite f_eqb. destruct (Nat.eqb x p); cbn [rrel]; [|easy]. setters.
    - assert (H2 : LS (set_prev p (Some n) (set_prev p None M)) (set_prev (f p) (Some (f n)) (set_prev (f p) None M')))
        by setters.
      rewrite (g_parent _ _ H2 p). apply rrel_match; [intros x _|intros _; cbn [rrel]; setters].
      apply (rrel_borrow LS (p :: G)). cbn [rrel]. setters.
  Qed.

  (* ---- values, attributes, lists *)
  Lemma target_rename v : link_target (rename_value f v) = option_map f (link_target v).
  Proof. now destruct v. Qed.
  Lemma container_rename v : is_link_container (rename_value f v) = is_link_container v.
  Proof. now destruct v. Qed.
  Lemma contains_rename l x : attrs_contains (map (rename_attr f) l) x = attrs_contains l x.
  Proof. unfold attrs_contains. induction l as [|a l IH]; cbn; [easy|]. now rewrite IH. Qed.
  Lemma get_value_rename l x : attrs_get_value (map (rename_attr f) l) x = option_map (rename_value f) (attrs_get_value l x).
  Proof. induction l as [|a l IH]; cbn; [easy|]. now destruct (aname_eqb (a_name a) x). Qed.
  Lemma position_map {A B} (g : A -> B) p l : position p (map g l) = position (fun x => p (g x)) l.
  Proof. induction l as [|a l IH]; cbn; [easy|]. now rewrite IH. Qed.
  Lemma position_ext {A} (p q : A -> bool) l : (forall x, p x = q x) -> position p l = position q l.
  Proof. intros H. induction l as [|a l IH]; cbn; [easy|]. now rewrite H, IH. Qed.
  Lemma remove_at_map {A B} (g : A -> B) i l : remove_at i (map g l) = map g (remove_at i l).
  Proof. revert i. induction l as [|a l IH]; intros [|i]; cbn; try easy. now rewrite IH. Qed.
  Lemma replace_at_map {A B} (g : A -> B) i x l : replace_at i (g x) (map g l) = map g (replace_at i x l).
  Proof. revert i. induction l as [|a l IH]; intros [|i]; cbn; try easy. now rewrite IH. Qed.
  Lemma insert_rename l a : attrs_insert (map (rename_attr f) l) (rename_attr f a) = map (rename_attr f) (attrs_insert l a).
  Proof.
    unfold attrs_insert. rewrite position_map. cbn [rename_attr a_name]. destruct (position _ l).
    - apply replace_at_map.
    - now rewrite map_app.
  Qed.
  Lemma remove_rename l x : attrs_remove (map (rename_attr f) l) x = map (rename_attr f) (attrs_remove l x).
  Proof.
    unfold attrs_remove. rewrite position_map. cbn [rename_attr a_name]. destruct (position _ l); [|easy].
    apply remove_at_map.
  Qed.
  Lemma edit_rename l x a : attrs_edit (map (rename_attr f) l) x (rename_attr f a) = map (rename_attr f) (attrs_edit l x a).
  Proof. induction l as [|b l IH]; cbn; [easy|]. destruct (aname_eqb (a_name b) x); cbn; [easy|]. now rewrite IH. Qed.
  Lemma svg_rename l : attrs_svg (map (rename_attr f) l) = map (fun q => (fst q, rename_attr f (snd q))) (attrs_svg l).
  Proof. induction l as [|b l IH]; cbn; [easy|]. destruct (a_name b); cbn; now rewrite IH. Qed.
  Lemma link_names_rename l : svg_link_names (map (rename_attr f) l) = svg_link_names l.
  Proof.
    unfold svg_link_names. rewrite svg_rename. induction (attrs_svg l) as [|b k IH]; cbn; [easy|].
    rewrite container_rename. destruct (is_link_container _); cbn; now rewrite IH.
  Qed.
  Lemma link_names_to_rename n l : svg_link_names_to (f n) (map (rename_attr f) l) = svg_link_names_to n l.
  Proof.
    unfold svg_link_names_to. rewrite svg_rename. induction (attrs_svg l) as [|b k IH]; cbn; [easy|].
    rewrite target_rename. destruct (link_target _) as [t|]; cbn; [|exact IH].
    rewrite f_eqb. destruct (Nat.eqb t n); cbn; now rewrite IH.
  Qed.
  Lemma link_attr_rename x n fb : link_attr x (f n) fb = rename_attr f (link_attr x n fb).
  Proof. unfold link_attr. destruct (name_has_id x A_Href); [easy|]. now destruct (_ || _). Qed.
  Lemma existsb_map n l : existsb (fun x => Nat.eqb x (f n)) (map f l) = existsb (fun x => Nat.eqb x n) l.
  Proof. induction l as [|a l IH]; cbn; [easy|]. now rewrite f_eqb, IH. Qed.

  (* ---- documents *)
  Definition rename_entry (e : entry) : entry := match e with Occupied n => Occupied (f n) | Vacant k => Vacant k end.
  Definition SS (s s' : slab) : Prop :=
    s_entries s' = map rename_entry (s_entries s) /\ s_next s' = s_next s /\ s_len s' = s_len s.
  Definition TS (t t' : nid -> ndata) : Prop :=
    (forall n, t' (f n) = rename_data f (t n)) /\ (forall m, ~ image m -> t' m = dt V0 m).
  Record DS (D V : dom) : Prop := {
    ds_lk    : LS (lk D) (lk V);
    ds_dt    : TS (dt D) (dt V);
    ds_fresh : forall k, f (fresh D + k) = fresh V + k;
    ds_root  : droot V = f (droot D);
    ds_store : SS (store D) (store V)
  }.

  Lemma ds_type D V n : DS D V -> node_type V (f n) = node_type D n.
  Proof. intros H. unfold node_type. now rewrite (proj1 (ds_dt D V H)). Qed.
  Lemma ds_id D V n : DS D V -> id_of V (f n) = id_of D n.
  Proof. intros H. unfold id_of. now rewrite (proj1 (ds_dt D V H)). Qed.
  Lemma ds_tag D V n : DS D V -> tag_name V (f n) = tag_name D n.
  Proof. intros H. unfold tag_name. now rewrite (proj1 (ds_dt D V H)). Qed.
  Lemma ds_text D V n : DS D V -> text_of V (f n) = text_of D n.
  Proof. intros H. unfold text_of. now rewrite (proj1 (ds_dt D V H)). Qed.
  Lemma ds_key D V n : DS D V -> storage_key V (f n) = storage_key D n.
  Proof. intros H. unfold storage_key. now rewrite (proj1 (ds_dt D V H)). Qed.
  Lemma ds_attrs D V n : DS D V -> attributes V (f n) = map (rename_attr f) (attributes D n).
  Proof. intros H. unfold attributes. now rewrite (proj1 (ds_dt D V H)). Qed.
  Lemma ds_linked D V n : DS D V -> linked_nodes V (f n) = map f (linked_nodes D n).
  Proof. intros H. unfold linked_nodes. now rewrite (proj1 (ds_dt D V H)). Qed.
  Lemma ds_is_element D V n : DS D V -> is_element V (f n) = is_element D n.
  Proof. intros H. unfold is_element. now rewrite (ds_type D V n H). Qed.
  Lemma ds_has_id D V n : DS D V -> has_id V (f n) = has_id D n.
  Proof. intros H. unfold has_id. now rewrite (ds_id D V n H). Qed.
  Lemma ds_has_attr D V n x : DS D V -> has_attribute V (f n) x = has_attribute D n x.
  Proof. intros H. unfold has_attribute. now rewrite (ds_attrs D V n H), contains_rename. Qed.

  Lemma modify_sim n g g' D V : DS D V -> (forall d, g' (rename_data f d) = rename_data f (g d)) ->
    DS (modify n g D) (modify (f n) g' V).
  Proof.
    intros [H1 (H2 & H3) H4 H5 H6] Hg. split; cbn; try easy. split.
    - intros m. unfold upd. rewrite f_eqb. destruct (Nat.eqb_spec m n) as [->|]; [|easy]. now rewrite H2, Hg.
    - intros m Hm. unfold upd. destruct (Nat.eqb_spec m (f n)) as [->|]; [|now apply H3].
      exfalso. apply Hm. now exists n.
  Qed.
  Lemma with_lk_sim L L' D V : DS D V -> LS L L' -> DS (with_lk L D) (with_lk L' V).
  Proof. intros []. now split. Qed.
  Lemma with_store_sim s s' D V : DS D V -> SS s s' -> DS (with_store s D) (with_store s' V).
  Proof. intros []. now split. Qed.

  Lemma nth_rename k l : nth_error (map rename_entry l) k = option_map rename_entry (nth_error l k).
  Proof. revert k. induction l as [|e l IH]; intros [|k]; cbn; easy. Qed.
  Lemma slab_insert_sim s s' n : SS s s' -> rrel (fun r r' => fst r' = fst r /\ SS (snd r) (snd r')) (slab_insert s n) (slab_insert s' (f n)).
  Proof.
    intros (H1 & H2 & H3). unfold slab_insert. rewrite H1, H2, H3, map_length, nth_rename.
    destruct (Nat.eqb _ _); cbn [rrel].
    - split; [easy|]. split; [|easy]. cbn. now rewrite map_app.
    - destruct (nth_error _ _) as [[m|k]|]; cbn; try easy. split; [easy|]. split; [|easy].
      cbn. apply (replace_at_map rename_entry _ (Occupied n)).
  Qed.
  Lemma slab_remove_sim s s' k : SS s s' ->
    rrel (fun r r' => fst r' = f (fst r) /\ SS (snd r) (snd r')) (slab_remove s k) (slab_remove s' k).
  Proof.
    intros (H1 & H2 & H3). unfold slab_remove. rewrite H1, H2, H3, nth_rename.
    destruct (nth_error _ _) as [[m|j]|]; cbn; try easy. split; [easy|]. split; [|easy].
    cbn. apply (replace_at_map rename_entry _ (Vacant (s_next s))).
  Qed.
  Lemma slab_iter_sim s s' : SS s s' -> slab_iter s' = map f (slab_iter s).
  Proof.
    intros (H1 & _). unfold slab_iter. rewrite H1. clear H1. induction (s_entries s) as [|[n|k] l IH]; cbn; [easy| |exact IH].
    now rewrite IH.
  Qed.

  Definition NS (r r' : nid * dom) : Prop := fst r' = f (fst r) /\ DS (snd r) (snd r').
  Lemma alloc_sim d d' D V : DS D V -> (forall k, set_key k d' = rename_data f (set_key k d)) ->
    rrel NS (alloc d D) (alloc d' V).
  Proof.
    intros H Hd. unfold alloc.
    assert (E : f (fresh D) = fresh V). { generalize (ds_fresh D V H 0). now rewrite !Nat.add_0_r. }
    rewrite <- E. eapply rrel_bind; [apply slab_insert_sim, (ds_store D V H)|].
    intros r r' (H1 & H2). cbn. split; [easy|]. cbn. rewrite H1.
    destruct H as [A (B & C) D1 D2 D3]. split; cbn; try easy.
    - split.
      + intros m. unfold upd. rewrite f_eqb. destruct (Nat.eqb_spec m (fresh D)); [apply Hd|apply B].
      + intros m Hm. unfold upd. destruct (Nat.eqb_spec m (f (fresh D))) as [->|]; [|now apply C].
        exfalso. apply Hm. now exists (fresh D).
    - intros k. rewrite E. generalize (D1 (S k)). rewrite !Nat.add_succ_r. now cbn.
  Qed.
  Lemma create_element_sim t D V : DS D V -> rrel NS (create_element t D) (create_element t V).
  Proof. intros H. unfold create_element. destruct (empty_tag t); [easy|]. now apply alloc_sim. Qed.
  Lemma create_node_sim ty s D V : DS D V -> rrel NS (create_node ty s D) (create_node ty s V).
  Proof. intros H. unfold create_node. destruct (_ || _); [easy|]. now apply alloc_sim. Qed.

  Lemma remove_attribute_sim n x D V : DS D V -> rrel DS (remove_attribute n x D) (remove_attribute (f n) x V).
  Proof.
    intros H. unfold remove_attribute. rewrite (ds_has_attr D V n x H). destruct (negb _); [easy|].
    eapply (rrel_bind DS).
    - rewrite (ds_attrs D V n H), get_value_rename. destruct (attrs_get_value _ x) as [v|]; cbn [option_map]; [|easy].
      rewrite target_rename. destruct (link_target v) as [t|]; cbn [option_map]; [|easy].
      rewrite (ds_linked D V t H), position_map.
      rewrite (position_ext (fun y => Nat.eqb (f y) (f n)) (fun y => Nat.eqb y n) _ (fun y => f_eqb y n)).
      destruct (position _ _) as [i|]; [|easy]. apply (rrel_borrow DS [n]). cbn [rrel]. apply modify_sim; [easy|].
      intros d. unfold rename_data, set_linked. cbn. now rewrite remove_at_map.
    - intros D1 V1 H1. cbn [rrel]. apply modify_sim; [easy|]. intros d. unfold rename_data, set_attrs. cbn.
      now rewrite remove_rename.
  Qed.
  Lemma set_simple_sim n a D V : DS D V -> rrel DS (set_simple_attribute n a D) (set_simple_attribute (f n) (rename_attr f a) V).
  Proof.
    intros H. unfold set_simple_attribute. cbn [rename_attr a_value a_name]. rewrite container_rename.
    destruct (is_link_container _); [easy|]. eapply (rrel_bind DS); [now apply remove_attribute_sim|].
    intros D1 V1 H1. cbn [rrel]. apply modify_sim; [easy|]. intros d. unfold rename_data, set_attrs. cbn.
    fold (rename_attr f a). now rewrite insert_rename.
  Qed.
  Definition PS (r r' : dom * result) : Prop := DS (fst r) (fst r') /\ snd r' = snd r.
  Lemma set_link_sim n x t fb D V : DS D V -> rrel PS (set_link_attribute n x t fb D) (set_link_attribute (f n) x (f t) fb V).
  Proof.
    intros H. unfold set_link_attribute. rewrite (ds_has_id D V t H), !(ds_id D V _ H), (ds_linked D V n H), existsb_map.
    destruct (negb _); [easy|]. destruct (str_eqb _ _); [easy|]. destruct (existsb _ _); [easy|].
    eapply (rrel_bind DS); [now apply remove_attribute_sim|]. intros D1 V1 H1. cbv zeta. cbn [rrel]. split; [|easy]. cbn [fst].
    apply modify_sim.
    - apply modify_sim; [easy|]. intros d. unfold rename_data, set_attrs. cbn. now rewrite link_attr_rename, insert_rename.
    - intros d. unfold rename_data, set_linked. cbn. now rewrite map_app.
  Qed.
  Lemma set_checked_sim n a D V : DS D V ->
    rrel PS (set_attribute_checked n a D) (set_attribute_checked (f n) (rename_attr f a) V).
  Proof.
    intros H. unfold set_attribute_checked. rewrite (ds_is_element D V n H). destruct (negb _); [easy|].
    assert (Hs : rrel PS (D <- set_simple_attribute n a D ;; Ok (D, ROk))
                         (D <- set_simple_attribute (f n) (rename_attr f a) V ;; Ok (D, ROk))).
    { eapply (rrel_bind DS); [now apply set_simple_sim|]. intros; now split. }
    destruct a as [x v]. destruct v; cbn [rename_attr a_value a_name rename_value] in *;
      first [exact Hs | now apply set_link_sim].
  Qed.
  Lemma set_attribute_sim n a D V : DS D V -> rrel DS (set_attribute n a D) (set_attribute (f n) (rename_attr f a) V).
  Proof.
    intros H. unfold set_attribute. eapply (rrel_bind PS); [now apply set_checked_sim|].
    intros [D1 e] [V1 e'] (H1 & H2). cbn in H1, H2. subst e'. destruct e; easy.
  Qed.
  Lemma set_if_none_sim n a D V : DS D V ->
    rrel DS (set_attribute_if_none n a D) (set_attribute_if_none (f n) (rename_attr f a) V).
  Proof.
    intros H. unfold set_attribute_if_none. cbn [rename_attr a_name]. rewrite (ds_has_attr D V n _ H).
    destruct (negb _); [|easy]. now apply (set_attribute_sim n a).
  Qed.

  Lemma remove_all_sim n l : forall D V, DS D V -> rrel DS (remove_all n l D) (remove_all (f n) l V).
  Proof.
    induction l as [|x l IH]; intros D V H; cbn [remove_all]; [easy|].
    eapply (rrel_bind DS); [now apply remove_attribute_sim|]. apply IH.
  Qed.
  Lemma unlink_users_sim n l : forall D V, DS D V -> rrel DS (unlink_users n l D) (unlink_users (f n) (map f l) V).
  Proof.
    induction l as [|x l IH]; intros D V H; cbn [unlink_users map]; [easy|].
    rewrite (ds_attrs D V x H), link_names_to_rename.
    eapply (rrel_bind DS); [now apply remove_all_sim|]. apply IH.
  Qed.
  Lemma remove_links_sim n D V : DS D V -> rrel DS (remove_links n D) (remove_links (f n) V).
  Proof.
    intros H. unfold remove_links. rewrite (ds_attrs D V n H), link_names_rename.
    eapply (rrel_bind DS); [now apply remove_all_sim|]. intros D1 V1 H1. rewrite (ds_linked D1 V1 n H1).
    now apply unlink_users_sim.
  Qed.
  Lemma remove_finish_sim n D V : DS D V -> rrel DS (remove_finish n D) (remove_finish (f n) V).
  Proof.
    intros H. unfold remove_finish. eapply (rrel_bind LS); [exact (detach_sim [] n _ _ (ds_lk D V H))|].
    intros L L' HL. cbv zeta. pose proof (with_lk_sim L L' D V H HL) as H1.
    rewrite (ds_key _ _ n H1).
    assert (H2 : DS (modify n (set_key None) (with_lk L D)) (modify (f n) (set_key None) (with_lk L' V))) by now apply modify_sim.
    destruct (storage_key _ n) as [k|]; [|easy].
    eapply rrel_bind; [apply slab_remove_sim, (ds_store _ _ H2)|]. intros r r' (_ & Hr). cbn [rrel]. now apply with_store_sim.
  Qed.

  Definition map_it (it : children_it) : children_it := mkChildren (option_map f (c_next it)) (option_map f (c_back it)).
  Lemma onid_map a b : onid_eqb (option_map f a) (option_map f b) = onid_eqb a b.
  Proof. destruct a, b; cbn; try easy. apply f_eqb. Qed.
  Lemma children_sim L L' n : LS L L' -> children L' (f n) = map_it (children L n).
  Proof.
    intros H. unfold children, map_it, first_child, last_child. cbn. now rewrite (g_first L L' H), (g_last L L' H).
  Qed.
  Lemma children_next_sim L L' it : LS L L' ->
    children_next L' (map_it it) = (option_map f (fst (children_next L it)), map_it (snd (children_next L it))).
  Proof.
    intros H. destruct it as [a b]. unfold children_next, children_finished, map_it, next_sibling. cbn.
    destruct b as [b|]; cbn; [|easy]. rewrite (g_next L L' H), onid_map. destruct (onid_eqb _ _); [easy|].
    destruct a as [a|]; cbn; [|easy]. now rewrite (g_next L L' H).
  Qed.
  Lemma for_children_sim body body' : (forall c D V, DS D V -> rrel DS (body c D) (body' (f c) V)) ->
    forall fuel it D V, DS D V -> rrel DS (for_children lk fuel body it D) (for_children lk fuel body' (map_it it) V).
  Proof.
    intros Hb. induction fuel as [|fuel IH]; intros it D V H; cbn [for_children]; [easy|].
    rewrite (children_next_sim (lk D) (lk V) it (ds_lk D V H)).
    destruct (children_next (lk D) it) as [[c|] it']; cbn [fst snd option_map]; [|easy].
    eapply (rrel_bind DS); [now apply Hb|]. apply IH.
  Qed.
  Lemma remove_rec_sim : forall fuel n D V, DS D V -> rrel DS (remove_rec fuel n D) (remove_rec fuel (f n) V).
  Proof.
    induction fuel as [|fuel IH]; intros n D V H; cbn [remove_rec]; [easy|].
    eapply (rrel_bind DS); [now apply remove_links_sim|]. intros D1 V1 H1.
    eapply (rrel_bind DS); [|intros; now apply remove_finish_sim].
    rewrite (children_sim (lk D1) (lk V1) n (ds_lk _ _ H1)). now apply for_children_sim.
  Qed.

  Lemma copy_attrs_sim src e l : forall D V, DS D V ->
    rrel DS (copy_attrs src e l D) (copy_attrs (f src) (f e) (map (rename_attr f) l) V).
  Proof.
    induction l as [|a l IH]; intros D V H; cbn [copy_attrs map]; [easy|].
    eapply (rrel_bind DS); [|apply IH]. cbn [rename_attr a_value]. rewrite target_rename.
    destruct (link_target (a_value a)) as [t|]; cbn [option_map].
    - rewrite f_eqb, (ds_has_id D V t H). destruct (_ && _); [easy|]. now apply (set_attribute_sim e a).
    - now apply (set_attribute_sim e a).
  Qed.
  Lemma copy_node_sim n D V : DS D V -> rrel NS (copy_node n D) (copy_node (f n) V).
  Proof.
    intros H. unfold copy_node. rewrite (ds_type D V n H), (ds_text D V n H), (ds_tag D V n H), (ds_attrs D V n H).
    destruct (node_type D n); try now apply create_node_sim.
    eapply (rrel_bind NS); [now apply create_element_sim|]. intros r r' (H1 & H2). cbv zeta. rewrite H1.
    eapply (rrel_bind DS); [now apply copy_attrs_sim|]. intros D1 V1 H3. now split.
  Qed.
  Lemma deep_sim : forall fuel p n D V, DS D V -> rrel DS (make_deep_copy fuel p n D) (make_deep_copy fuel (f p) (f n) V).
  Proof.
    induction fuel as [|fuel IH]; intros p n D V H; cbn [make_deep_copy]; [easy|].
    rewrite (children_sim (lk D) (lk V) n (ds_lk _ _ H)). apply for_children_sim; [|easy].
    clear D V H. intros c D V H. eapply (rrel_bind NS); [now apply copy_node_sim|]. intros r r' (H1 & H2). cbv zeta.
    rewrite H1. eapply (rrel_bind LS); [exact (append_sim [] p (fst r) _ _ (ds_lk _ _ H2))|]. intros L L' HL.
    pose proof (with_lk_sim L L' _ _ H2 HL) as H3. unfold has_children, first_child. rewrite (g_first _ _ (ds_lk _ _ H3) c).
    destruct (l_first _ c); cbn [option_map]; [|easy]. now apply IH.
  Qed.

  Lemma drop_loop_sim l : forall D V, DS D V -> rrel DS (drop_loop l D) (drop_loop (map f l) V).
  Proof.
    induction l as [|n l IH]; intros D V H; cbn [drop_loop map]; [easy|]. cbv zeta.
    assert (H1 : DS (modify n (set_linked []) (modify n (set_attrs (attrs_clear (attributes D n))) D))
                    (modify (f n) (set_linked []) (modify (f n) (set_attrs (attrs_clear (attributes V (f n)))) V))).
    { apply modify_sim; [|easy]. now apply modify_sim. }
    eapply (rrel_bind LS); [exact (detach_sim [] n _ _ (ds_lk _ _ H1))|]. intros L L' HL. apply IH. now apply with_lk_sim.
  Qed.
  Lemma drop_document_sim D V : DS D V -> rrel DS (drop_document D) (drop_document V).
  Proof. intros H. unfold drop_document. rewrite (slab_iter_sim _ _ (ds_store D V H)). now apply drop_loop_sim. Qed.
End Sim.
