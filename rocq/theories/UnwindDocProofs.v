(* Proofs about remove_node, drain and copy_node_deep after a panic that was caught. *)
From Coq Require Import List Bool PeanoNat NArith Lia.
From Verif Require Import Base Ids Links Tree Iter ForestSpec TreeSpec ListFacts TreeProofs ForestFacts IterSpec IterProofs
  TreeApi Data Attrs AttrFacts Slab SlabProofs NodeApi AttrSpec Doc DocSpec History LinkProofs RemoveProofs RemoveExact InvProofs
  DrainProofs LoopExact CopyProofs HistoryProofs ApiProofs DocApi MixProofs WorldProofs Guards GuardSpec GuardTree GuardProofs
  GuardDoc GuardDocSpec GuardDocProofs GuardDrain GuardCopy GuardDocApi GuardFree Unwind UnwindSpec UnwindTree UnwindAttrs UnwindDoc UnwindDocSpec.
Import ListNotations.

(* ---- the outcome for a user who does not catch panics *)
Lemma seen_asked {A} (r : res A) (D : dom) : seen (asked r D) = (a <- r ;; Ok (D, a)).
Proof. now destruct r. Qed.
Lemma seen__then {A} (o : run A) k (h : dom * A -> res dom) :
  (forall a D, seen_ (k a D) = h (D, a)) -> seen_ (then_ o k) = (x <- seen o ;; h x).
Proof. intros H. destruct o as [[D [a|p]]|]; [apply H|easy|easy]. Qed.
Lemma seen_then {A B} (o : run A) (k : A -> dom -> run B) (h : dom * A -> res (dom * B)) :
  (forall a D, seen (k a D) = h (D, a)) -> seen (then_ o k) = (x <- seen o ;; h x).
Proof. intros H. destruct o as [[D [a|p]]|]; [apply H|easy|easy]. Qed.
Lemma seen_unit (o : run unit) : seen o = (D <- seen_ o ;; Ok (D, tt)).
Proof. destruct o as [[D [[]|p]]|]; easy. Qed.
Lemma seen__unit o k h : (forall D, seen_ (k tt D) = h D) -> seen_ (then_ o k) = (D <- seen_ o ;; h D).
Proof. intros H. destruct o as [[D [[]|p]]|]; [apply H|easy|easy]. Qed.
Lemma seen_read g n (D : dom) k h : (forall D, seen_ (k tt D) = h D) ->
  seen_ (then_ (asked (reading g n (Ok tt)) D) k) = reading g n (h D).
Proof. intros H. unfold reading. destruct (mem n _); [easy|apply H]. Qed.
Lemma seen_write g n (D : dom) k h : (forall D, seen_ (k tt D) = h D) ->
  seen_ (then_ (asked (writing g n (Ok tt)) D) k) = writing g n (h D).
Proof. intros H. unfold writing. destruct (mem n _); [easy|apply H]. Qed.
Lemma seen_moved D o : seen_ (moved D o) = (L <- uncaught_ o ;; Ok (with_lk L D)).
Proof. now destruct o as [L [[]|p]]. Qed.

Lemma seen_for_children g fuel body h : (forall c D, seen_ (body c D) = h c D) -> forall it D,
  seen_ (u_for_children g fuel body it D) = g_for_children g lk fuel h it D.
Proof.
  intros H. induction fuel as [|fuel IH]; intros it D; [easy|]. cbn [u_for_children g_for_children].
  destruct (g_children_next g (lk D) it) as [[[c|] it']|p|]; cbn [asked then_ bind]; try easy.
  rewrite (seen__unit _ _ (fun D => g_for_children g lk fuel h it' D)) by (intros D1; apply IH). now rewrite H.
Qed.
Lemma seen_remove_all g self names : forall D, seen_ (u_remove_all g self names D) = g_remove_all g self names D.
Proof.
  induction names as [|x t IH]; intros D; [easy|]. cbn [u_remove_all g_remove_all].
  rewrite (seen__unit _ _ (fun D => g_remove_all g self t D)) by (intros D1; apply IH). cbn [seen_]. now rewrite unc_remove_attribute.
Qed.
Lemma seen_unlink g node users : forall D, seen_ (u_unlink_users g node users D) = g_unlink_users g node users D.
Proof.
  induction users as [|u t IH]; intros D; [easy|]. cbn [u_unlink_users g_unlink_users].
  apply (seen_read g u D _ (fun D => D <- g_remove_all g u (svg_link_names_to node (attributes D u)) D ;; g_unlink_users g node t D)).
  clear D. intros D. rewrite (seen__unit _ _ (fun D => g_unlink_users g node t D)) by (intros D1; apply IH). now rewrite seen_remove_all.
Qed.
Lemma seen_links g node D : seen_ (u_remove_links g node D) = g_remove_links g node D.
Proof.
  unfold u_remove_links, g_remove_links.
  apply (seen_read g node D _ (fun D => D <- g_remove_all g node (svg_link_names (attributes D node)) D ;;
     reading g node (g_unlink_users g node (linked_nodes D node) D))).
  clear D. intros D. rewrite (seen__unit _ _ (fun D => reading g node (g_unlink_users g node (linked_nodes D node) D))).
  - now rewrite seen_remove_all.
  - intros D1. apply (seen_read g node D1 _ (fun D => g_unlink_users g node (linked_nodes D node) D)). intros D2. apply seen_unlink.
Qed.
Lemma seen_finish g node D : seen_ (u_remove_finish g node D) = g_remove_finish g node D.
Proof.
  unfold u_remove_finish, g_remove_finish, g_detach.
  rewrite (seen__unit _ _ (fun D => writing g node (
    let key := storage_key D node in
    let D := modify node (set_key None) D in
    match key with
    | Some k => r <- slab_remove (store D) k ;; Ok (with_store (snd r) D)
    | None => Ok D
    end))).
  - rewrite seen_moved, unc_detach. reflexivity.
  - clear D. intros D. apply (seen_write g node D _ (fun D => let key := storage_key D node in
      let D := modify node (set_key None) D in
      match key with
      | Some k => r <- slab_remove (store D) k ;; Ok (with_store (snd r) D)
      | None => Ok D
      end)).
    clear D. intros D. cbv zeta. destruct (storage_key D node); [|easy]. now destruct (slab_remove _ _).
Qed.
Lemma seen_remove_rec g fuel : forall node D, seen_ (u_remove_rec fuel g node D) = g_remove_rec fuel g node D.
Proof.
  induction fuel as [|fuel IH]; intros node D; [easy|]. cbn [u_remove_rec g_remove_rec].
  rewrite (seen__unit _ _ (fun D => it <- g_children g node (lk D) ;; D <- g_for_children g lk fuel (g_remove_rec fuel g) it D ;;
    g_remove_finish g node D)); [now rewrite seen_links|].
  clear D. intros D. destruct (g_children g node (lk D)) as [it|p|]; cbn [asked then_ bind]; [|easy|easy].
  rewrite (seen__unit _ _ (fun D => g_remove_finish g node D)) by (intros D1; apply seen_finish).
  now rewrite (seen_for_children g fuel (u_remove_rec fuel g) (g_remove_rec fuel g) IH).
Qed.
Lemma seen_remove_node g node D : seen_ (u_remove_node g node D) = g_remove_node g node D.
Proof. apply seen_remove_rec. Qed.
Lemma seen_drain_loop g f fuel : forall node k D, seen (u_drain_loop fuel g f node k D) = g_drain_loop fuel g f node (D, k).
Proof.
  induction fuel as [|fuel IH]; intros node k D; [easy|]. cbn [u_drain_loop g_drain_loop fst snd]. destruct node as [n|]; [|easy].
  destruct (f D n).
  - unfold reading. destruct (mem n _); [easy|]. cbn [asked then_].
    rewrite <- seen_remove_node. destruct (u_remove_node g n D) as [[D1 [[]|p]]|]; cbn [then_ seen_ uncaught_ bind]; [apply IH|easy|easy].
  - unfold reading. destruct (mem n _); [easy|]. cbn [asked then_]. destruct (has_children _ n).
    + rewrite <- IH. destruct (u_drain_loop fuel g f (first_child (lk D) n) k D) as [[D1 [k1|p]]|]; cbn [then_ seen uncaught bind fst]; [apply IH|easy|easy].
    + cbn [then_ bind fst]. apply IH.
Qed.
Lemma seen_drain g root f D : seen (u_drain g root f D) = g_drain g root f D.
Proof. unfold u_drain, g_drain, reading. destruct (mem root _); [easy|]. apply seen_drain_loop. Qed.
Lemma seen_deep g fuel : forall p n D, seen_ (u_make_deep_copy fuel g p n D) = g_make_deep_copy fuel g p n D.
Proof.
  induction fuel as [|fuel IH]; intros p n D; [easy|]. cbn [u_make_deep_copy g_make_deep_copy].
  destruct (g_children g n (lk D)) as [it|q|]; cbn [asked then_ bind]; [|easy|easy].
  apply seen_for_children. clear D it. intros c D.
  pose proof (unc_copy_node g c D) as U. destruct (u_copy_node g c D) as [D1 [m|q]]; cbn [uncaught then_ seen_ uncaught_] in *.
  - destruct (g_copy_node g c D) as [r|q|]; cbn [bind] in *; try discriminate. injection U as -> ->.
    rewrite (seen__unit _ _ (fun D => reading g c (if has_children (lk D) c then g_make_deep_copy fuel g (fst r) c D else Ok D))).
    + unfold g_append. now rewrite seen_moved, unc_append.
    + intros D2. apply (seen_read g c D2 _ (fun D => if has_children (lk D) c then g_make_deep_copy fuel g (fst r) c D else Ok D)).
      intros D3. destruct (has_children _ c); [apply IH|easy].
  - destruct (g_copy_node g c D) as [r|q'|]; cbn [bind] in *; congruence.
Qed.
Lemma seen_copy_deep g n D : seen (u_copy_node_deep g n D) = (x <- g_copy_node_deep g n D ;; Ok (snd x, fst x)).
Proof.
  unfold u_copy_node_deep, g_copy_node_deep.
  pose proof (unc_copy_node g n D) as U. destruct (u_copy_node g n D) as [D1 [m|q]]; cbn [uncaught then_ seen uncaught] in *.
  - destruct (g_copy_node g n D) as [r|q|]; cbn [bind] in *; try discriminate. injection U as -> ->.
    rewrite <- seen_deep. destruct (u_make_deep_copy _ g (fst r) n (snd r)) as [[D2 [[]|p]]|]; easy.
  - destruct (g_copy_node g n D) as [r|q'|]; cbn [bind] in *; congruence.
Qed.

(* ---- a call that went through under guards goes through without them *)
Definition goes {A} (guarded free : res A) : Prop := forall v, guarded = Ok v -> free = Ok v.
Lemma goes_refl {A} (r : res A) : goes r r. Proof. easy. Qed.
Lemma goes_bind {A B} (r r' : res A) (k k' : A -> res B) : goes r r' -> (forall v, goes (k v) (k' v)) -> goes (bind r k) (bind r' k').
Proof. intros H K v E. destruct r as [a|q|]; try discriminate. rewrite (H a eq_refl). exact (K a v E). Qed.
Lemma goes_reading {A} g n (r r' : res A) : goes r r' -> goes (reading g n r) r'.
Proof. intros H v E. unfold reading in E. destruct (mem n _); [discriminate|exact (H v E)]. Qed.
Lemma goes_writing {A} g n (r r' : res A) : goes r r' -> goes (writing g n r) r'.
Proof. intros H v E. unfold writing in E. destruct (mem n _); [discriminate|exact (H v E)]. Qed.
Lemma goes_remove_attribute g self name D : goes (g_remove_attribute g self name D) (remove_attribute self name D).
Proof.
  unfold g_remove_attribute, remove_attribute. apply goes_reading. destruct (negb _); [apply goes_refl|].
  apply goes_bind; [|intros v; apply goes_writing, goes_refl].
  destruct (attrs_get_value _ _) as [v|]; [|apply goes_refl]. destruct (link_target v) as [t|]; [|apply goes_refl].
  apply goes_reading. destruct (position _ _); [|apply goes_refl].
  intros w E. unfold writing in E. destruct (mem t _) eqn:Em; [discriminate|].
  unfold all_guards, add_ref in Em. cbn [g_ref g_mut] in Em. rewrite mem_app in Em. apply orb_false_iff in Em. destruct Em as (_ & Em).
  unfold mem in Em. cbn [existsb] in Em. apply orb_false_iff in Em. destruct Em as (Em & _).
  unfold borrow_mut, mem. cbn [existsb]. rewrite Em. exact E.
Qed.

Lemma goes_remove_all g self names : forall D, goes (g_remove_all g self names D) (remove_all self names D).
Proof.
  induction names as [|x t IH]; intros D; [apply goes_refl|]. cbn [g_remove_all remove_all].
  apply goes_bind; [apply goes_remove_attribute|exact IH].
Qed.
Lemma goes_unlink g node users : forall D, goes (g_unlink_users g node users D) (unlink_users node users D).
Proof.
  induction users as [|u t IH]; intros D; [apply goes_refl|]. cbn [g_unlink_users unlink_users].
  apply goes_reading, goes_bind; [apply goes_remove_all|exact IH].
Qed.
Lemma goes_links g node D : goes (g_remove_links g node D) (remove_links node D).
Proof.
  unfold g_remove_links, remove_links. apply goes_reading, goes_bind; [apply goes_remove_all|]. intros D1. apply goes_reading, goes_unlink.
Qed.
Lemma goes_finish g node D : goes (g_remove_finish g node D) (remove_finish node D).
Proof.
  unfold g_remove_finish, g_detach, remove_finish. intros v E.
  destruct (detach (all_guards g) node (lk D)) as [L|q|] eqn:Ed; cbn [bind] in E; try discriminate. rewrite (detach_less _ _ _ _ Ed). cbn [bind].
  unfold writing in E. destruct (mem node _); [discriminate|exact E].
Qed.
Lemma next_goes g L it r : g_children_next g L it = Ok r -> r = children_next L it.
Proof. intros E. destruct (children_next_bounds g L it) as [(X & _)|(X & _)]; congruence. Qed.
Lemma goes_for_children g fuel body body' : (forall c D, goes (body c D) (body' c D)) -> forall it (D : dom),
  goes (g_for_children g lk fuel body it D) (for_children lk fuel body' it D).
Proof.
  intros H. induction fuel as [|fuel IH]; intros it D; [apply goes_refl|]. cbn [g_for_children for_children]. intros v E.
  destruct (g_children_next g (lk D) it) as [r|q|] eqn:En; cbn [bind] in E; try discriminate.
  apply next_goes in En. rewrite <- En. destruct r as [[c|] it']; [|exact E].
  exact (goes_bind _ _ _ _ (H c D) (fun D1 => IH it' D1) v E).
Qed.
Lemma goes_remove_rec g fuel : forall node D, goes (g_remove_rec fuel g node D) (remove_rec fuel node D).
Proof.
  induction fuel as [|fuel IH]; intros node D; [apply goes_refl|]. cbn [g_remove_rec remove_rec].
  apply goes_bind; [apply goes_links|]. intros D1 v E. unfold g_children, reading in E. destruct (mem node _); [discriminate|]. cbn [bind] in E.
  exact (goes_bind _ _ _ _ (goes_for_children g fuel _ _ IH _ D1) (fun D2 => goes_finish g node D2) v E).
Qed.

(* ---- removing *)
Lemma less_refl D : only_less D D.
Proof. split; try easy; intros x; apply incl_refl. Qed.
Lemma less_trans D D1 D2 : only_less D D1 -> only_less D1 D2 -> only_less D D2.
Proof.
  intros [a1 b1 c1 d1 e1 f1 g1 h1] [a2 b2 c2 d2 e2 f2 g2 h2]. split; try congruence; intros x; try congruence.
  - exact (incl_tran (g2 x) (g1 x)).
  - exact (incl_tran (h2 x) (h1 x)).
Qed.
Lemma half_less g D D1 D' : only_less D D1 -> half_removed g D1 D' -> half_removed g D D'.
Proof.
  intros H [(R & L)|(D2 & x & q & R & L & X)]; [left; split; [easy|now apply (less_trans D D1)]|].
  right. exists D2, x, q. split; [easy|]. split; [now apply (less_trans D D1)|easy].
Qed.
Definition safe {A} (g : guards) (D : dom) (o : run A) : Prop :=
  match o with
  | Some (D', Gives _) => reachable D' /\ only_less D D'
  | Some (D', Panics _) => half_removed g D D'
  | None => True
  end.
Lemma safe_then {A B} g D (o : run A) (k : A -> dom -> run B) : safe g D o ->
  (forall a D', o = Some (D', Gives a) -> reachable D' -> only_less D D' -> safe g D' (k a D')) -> safe g D (then_ o k).
Proof.
  intros H K. destruct o as [[D1 [a|q]]|]; cbn [then_ safe] in *; [|exact H|easy]. destruct H as (R & L). specialize (K a D1 eq_refl R L).
  destruct (k a D1) as [[D2 [b|q]]|]; cbn [safe] in *; [|now apply (half_less g D D1)|easy].
  split; [apply K|]. apply (less_trans D D1); [easy|apply K].
Qed.
Lemma safe_asked {A} g D (r : res A) : reachable D -> safe g D (asked r D).
Proof. intros R. destruct r; cbn; [split; [easy|apply less_refl]|left; split; [easy|apply less_refl]|easy]. Qed.

Lemma torn_remove_dec g D self name : LInv D -> torn_remove g D self name \/ ~ torn_remove g D self name.
Proof.
  intros I. unfold torn_remove. destruct (held_dec g self) as [H1|H1]; [|tauto]. destruct (held_mut_dec g self) as [H2|H2]; [tauto|].
  destruct (old_target D self name) as [t|] eqn:E.
  - destruct (held_dec g t) as [H3|H3].
    + right. intros (_ & _ & u & Hu & H). apply (old_target_iff D self name u I) in Hu. congruence.
    + left. split; [easy|]. split; [easy|]. exists t. split; [now apply (old_target_iff D self name t I)|easy].
  - right. intros (_ & _ & u & Hu & H). apply (old_target_iff D self name u I) in Hu. congruence.
Qed.
Lemma remove_less self name D D' : LInv D -> remove_attribute self name D = Ok D' -> only_less D D'.
Proof.
  intros I E. pose proof (remove_shrinks self name D D' I E) as S. destruct (remove_attribute_spec self name D I) as (D1 & E1 & [] & _).
  assert (D1 = D') as -> by congruence. split; try easy; intros x; apply (S x).
Qed.
Lemma safe_remove_attribute g self name D : reachable D -> self < fresh D -> safe g D (Some (u_remove_attribute g self name D)).
Proof.
  intros R Hs. pose proof (reach_linv D R) as I. pose proof (unc_remove_attribute g self name D) as U.
  pose proof (remove_end g self name D I) as En. destruct (u_remove_attribute g self name D) as [D' [[]|q]] eqn:Eu; cbn [safe uncaught_] in *.
  - symmetry in U. apply goes_remove_attribute in U. split; [|exact (remove_less self name D D' I U)].
    apply (reach_step D (ORemoveAttribute self name)); [easy| |exact U]. split; [|exact Logic.I]. intros x [<-|[]]. exact Hs.
  - destruct (En D' q eq_refl) as (T & N). destruct (torn_remove_dec g D self name I) as [Ht|Ht].
    + right. exists D, self, q. split; [easy|]. split; [apply less_refl|]. split; [exact Hs|]. left. exists name. split; [easy|]. split; [easy|now apply T].
    + rewrite (N Ht). left. split; [easy|apply less_refl].
Qed.
Lemma safe_remove_all g self names : forall D, reachable D -> self < fresh D -> safe g D (u_remove_all g self names D).
Proof.
  induction names as [|x t IH]; intros D R Hs; [cbn; split; [easy|apply less_refl]|]. cbn [u_remove_all].
  apply safe_then; [now apply safe_remove_attribute|]. intros _ D1 _ R1 L1. apply IH; [easy|]. now rewrite (ol_fresh _ _ L1).
Qed.
Lemma safe_unlink g node users : forall D, reachable D -> (forall u, In u users -> u < fresh D) -> safe g D (u_unlink_users g node users D).
Proof.
  induction users as [|u t IH]; intros D R Hu; [cbn; split; [easy|apply less_refl]|]. cbn [u_unlink_users].
  apply safe_then; [now apply safe_asked|]. intros _ D1 _ R1 L1.
  apply safe_then; [apply safe_remove_all; [easy|rewrite (ol_fresh _ _ L1); apply Hu; now left]|]. intros _ D2 _ R2 L2.
  apply IH; [easy|]. intros v Hv. rewrite (ol_fresh _ _ L2), (ol_fresh _ _ L1). apply Hu. now right.
Qed.
Lemma safe_links g node D : reachable D -> node < fresh D -> safe g D (u_remove_links g node D).
Proof.
  intros R Hn. unfold u_remove_links. apply safe_then; [now apply safe_asked|]. intros _ D1 _ R1 L1.
  apply safe_then; [apply safe_remove_all; [easy|now rewrite (ol_fresh _ _ L1)]|]. intros _ D2 _ R2 L2.
  apply safe_then; [now apply safe_asked|]. intros _ D3 _ R3 L3. apply safe_unlink; [easy|].
  intros u. apply (bd_linked D3 (reachable_bounded D3 R3)).
Qed.
Lemma with_lk_same D : with_lk (lk D) D = D.
Proof. now destruct D. Qed.
Lemma lk_less L D : only_less D (with_lk L D).
Proof. split; try easy; intros x; apply incl_refl. Qed.
Lemma safe_detach g node D : reachable D -> node < fresh D -> safe g D (moved D (u_detach (all_guards g) node (lk D))).
Proof.
  intros R Hn. destruct (detach_end (all_guards g) node (lk D) (reachable_shows D R)) as (U & En).
  destruct (u_detach (all_guards g) node (lk D)) as [L [[]|q]] eqn:Eu; cbn [safe moved fst snd uncaught_] in *.
  - split; [|apply lk_less]. symmetry in U. apply detach_less in U. apply (reach_step D (ODetach node)); [easy| |cbn; unfold on_links; now rewrite U].
    split; [|exact Logic.I]. intros x [<-|[]]. exact Hn.
  - destruct (En L q eq_refl) as (A & B). destruct (held_dec g node) as [H|H].
    + rewrite (A (proj1 (held_all g node) H)), with_lk_same. left. split; [easy|apply less_refl].
    + right. exists D, node, q. split; [easy|]. split; [apply less_refl|]. split; [exact Hn|]. right. split; [easy|].
      split; [now exists L|]. apply B. now rewrite <- held_all.
Qed.
Lemma finish_panics g node D D' q : reachable D -> node < fresh D -> u_remove_finish g node D = Some (D', Panics q) -> half_removed g D D'.
Proof.
  intros R Hn E. unfold u_remove_finish in E. pose proof (safe_detach g node D R Hn) as Hs.
  destruct (moved D (u_detach (all_guards g) node (lk D))) as [[D1 [[]|q1]]|]; cbn [then_ safe] in *; [|injection E as <- <-; easy|discriminate].
  destruct Hs as (R1 & L1). unfold writing in E. destruct (mem node _); cbn [asked then_] in E; [injection E as <- <-; left; now split|].
  destruct (storage_key D1 node) as [k|] eqn:Ek; [|discriminate]. exfalso.
  destruct (reachable_inv D1 R1) as (F & I & _). pose proof (so_fwd _ _ (iv_slab D1 F I) node k Ek) as Hk. unfold slab_get in Hk.
  unfold slab_remove in E. change (store (modify node (set_key None) D1)) with (store D1) in E.
  destruct (nth_error (s_entries (store D1)) k) as [[y|y]|]; try discriminate.
Qed.
Lemma removed_less S D D' : removed S D D' -> shrinks D D' -> only_less D D'.
Proof. intros [] Sh. split; try easy; intros x; apply (Sh x). Qed.
Lemma safe_for_children g body : (forall c D, reachable D -> c < fresh D -> safe g D (body c D)) ->
  forall fuel it D, reachable D -> olt (fresh D) (c_next it) -> safe g D (u_for_children g fuel body it D).
Proof.
  intros H. induction fuel as [|fuel IH]; intros it D R Hit; [easy|]. cbn [u_for_children].
  assert (Hb : forall y, olt (fresh D) (l_next (lk D) y)) by (intros y; apply (bd_links D (reachable_bounded D R) y)).
  destruct (g_children_next g (lk D) it) as [r|q|] eqn:En; cbn [asked then_ safe]; [|left; split; [easy|apply less_refl]|easy].
  apply next_goes in En. destruct r as [[c|] it']; [|split; [easy|apply less_refl]].
  destruct (children_next_old (lk D) it c it' (fresh D) Hb Hit (eq_sym En)) as (Hc & Hit').
  apply safe_then; [now apply H|]. intros _ D1 _ R1 L1. apply IH; [easy|]. now rewrite (ol_fresh _ _ L1).
Qed.
Lemma safe_rec g fuel : forall node D, reachable D -> node < fresh D -> safe g D (u_remove_rec fuel g node D).
Proof.
  induction fuel as [|fuel IH]; intros node D R Hn; [easy|].
  assert (HG : forall D', u_remove_rec (S fuel) g node D = Some (D', Gives tt) -> reachable D' /\ only_less D D').
  { intros D' E. pose proof (seen_remove_rec g (S fuel) node D) as U. rewrite E in U. cbn [seen_ uncaught_] in U. symmetry in U.
    apply goes_remove_rec in U. destruct (reachable_inv D R) as (F & I & _).
    assert (Hnd : remove_rec (S fuel) node D <> Diverge) by now rewrite U.
    destruct (remove_rec_finite_only (S fuel) node D F (RInv_of D F I) Hnd) as (t & <- & Ht).
    destruct (node_bounds g D F t I Ht Hn) as (D1 & E1 & _ & Rm & Sh & _).
    assert (X : remove_rec (S fuel + enough D) (t_node t) D = Ok D').
    { rewrite <- U. apply remove_rec_mono; [lia|easy]. }
    rewrite (remove_node_fuel D F (t_node t) _ I Hn) in X by lia. assert (D1 = D') as -> by congruence.
    split; [|exact (removed_less _ _ _ Rm Sh)]. apply (reach_step D (ORemoveNode (t_node t))); [easy| |exact X].
    split; [|exact Logic.I]. intros x [<-|[]]. exact Hn. }
  assert (HP : forall D' q, u_remove_rec (S fuel) g node D = Some (D', Panics q) -> half_removed g D D').
  { intros D' q E. cbn [u_remove_rec] in E. pose proof (safe_links g node D R Hn) as S1.
    destruct (u_remove_links g node D) as [[D1 [[]|q1]]|]; cbn [then_ safe] in E, S1; [|injection E as <- <-; easy|discriminate].
    destruct S1 as (R1 & L1). apply (half_less g D D1 D' L1). clear HG.
    pose proof (safe_asked g D1 (g_children g node (lk D1)) R1) as S2.
    destruct (g_children g node (lk D1)) as [it|q1|] eqn:Ec; cbn [asked then_ safe] in E, S2; [|injection E as <- <-; easy|discriminate].
    unfold g_children, reading in Ec. destruct (mem node _); [discriminate|]. injection Ec as <-.
    pose proof (safe_for_children g (u_remove_rec fuel g) IH fuel (children (lk D1) node) D1 R1) as S3.
    assert (Hit : olt (fresh D1) (c_next (children (lk D1) node))) by (apply (bd_links D1 (reachable_bounded D1 R1) node)).
    specialize (S3 Hit).
    destruct (u_for_children g fuel (u_remove_rec fuel g) (children (lk D1) node) D1) as [[D3 [[]|q1]]|]; cbn [then_ safe] in E, S3;
      [|injection E as <- <-; easy|discriminate].
    destruct S3 as (R3 & L3). apply (half_less g D1 D3 D' L3).
    assert (Hn3 : node < fresh D3) by (rewrite (ol_fresh _ _ L3), (ol_fresh _ _ L1); exact Hn).
    exact (finish_panics g node D3 D' q R3 Hn3 E). }
  destruct (u_remove_rec (S fuel) g node D) as [[D' [[]|q]]|]; cbn [safe]; [now apply HG|now apply (HP D' q)|easy].
Qed.
Theorem remove_node_stops g node D : reachable D -> exists_node D node -> forall D' q,
  u_remove_node g node D = Some (D', Panics q) -> half_removed g D D'.
Proof. intros R Hn D' q E. pose proof (safe_rec g (enough D) node D R Hn) as H. unfold u_remove_node in E. now rewrite E in H. Qed.

(* ---- draining *)
Lemma safe_drain_loop g f fuel : forall node k D, reachable D -> olt (fresh D) node -> safe g D (u_drain_loop fuel g f node k D).
Proof.
  induction fuel as [|fuel IH]; intros node k D R Hn; [easy|]. cbn [u_drain_loop].
  destruct node as [n|]; [|split; [easy|apply less_refl]]. specialize (Hn n eq_refl).
  assert (Hb : forall D y, reachable D -> olt (fresh D) (l_next (lk D) y)) by (intros D0 y R0; apply (bd_links D0 (reachable_bounded D0 R0) y)).
  destruct (f D n).
  - apply safe_then; [now apply safe_asked|]. intros [] D1 _ R1 L1. cbv zeta.
    apply safe_then; [apply safe_rec; [easy|now rewrite (ol_fresh _ _ L1)]|]. intros _ D2 _ R2 L2. apply IH; [easy|].
    rewrite (ol_fresh _ _ L2). now apply Hb.
  - apply safe_then.
    + apply safe_then; [now apply safe_asked|]. intros [] D1 _ R1 L1. destruct (has_children _ n); [|split; [easy|apply less_refl]].
      apply safe_then; [now apply safe_asked|]. intros [] D2 _ R2 L2. apply IH; [easy|]. apply (bd_links D2 (reachable_bounded D2 R2) n).
    + intros k1 D1 _ R1 L1. apply safe_then; [now apply safe_asked|]. intros [] D2 _ R2 L2. apply IH; [easy|]. now apply Hb.
Qed.
Theorem drain_stops g root f D : reachable D -> forall D' q,
  u_drain g root f D = Some (D', Panics q) -> half_removed g D D'.
Proof.
  intros R D' q E. assert (H : safe g D (u_drain g root f D)).
  { unfold u_drain. apply safe_then; [now apply safe_asked|]. intros [] D1 _ R1 L1. apply safe_drain_loop; [easy|].
    apply (bd_links D1 (reachable_bounded D1 R1) root). }
  now rewrite E in H.
Qed.

(* ---- copying *)
Lemma neighbours_refl D x : same_neighbours D D x.
Proof. repeat split. Qed.
Lemma neighbours_trans D D1 D2 x : same_neighbours D D1 x -> same_neighbours D1 D2 x -> same_neighbours D D2 x.
Proof. intros (a & b & c & d & e) (a' & b' & c' & d' & e'). unfold same_neighbours. repeat split; congruence. Qed.
Lemma kept_refl D : kept D D.
Proof. split; [easy|]. split; [easy|]. intros x _. repeat split. Qed.
Lemma kept_trans D D1 D2 : kept D D1 -> kept D1 D2 -> kept D D2.
Proof.
  intros (F1 & R1 & K1) (F2 & R2 & K2). split; [lia|]. split; [congruence|]. intros x Hx.
  destruct (K1 x Hx) as (a & b & c & d & e & f). unfold exists_node in *. destruct (K2 x) as (a' & b' & c' & d' & e' & f'); [unfold exists_node; lia|].
  do 5 (split; [congruence|]). exact (neighbours_trans _ _ _ _ f f').
Qed.
Lemma reachable_droot D D' : reachable D -> reachable D' -> droot D = droot D'.
Proof.
  assert (H : forall D0 D, new_document = Ok D0 -> reachable D -> droot D = droot D0).
  { intros D0 D1 E R. induction R as [D2 E2|D2 o D3 R IH Hl Hs]; [congruence|].
    destruct (step_inv False o D2 D3) as (_ & _ & X); try easy; [|now rewrite X].
    destruct (reachable_inv D2 R) as (F & I & _). exists F. split; [exact I|easy]. }
  intros R R'. destruct new_document as [D0| |] eqn:E; [rewrite (H D0 D eq_refl R); now rewrite (H D0 D' eq_refl R')| |]; vm_compute in E; discriminate.
Qed.
Lemma started_kept D n l D' : reachable D -> reachable D' -> started_copy D n l D' -> kept D D'.
Proof.
  intros R R' [a b c d e f H]. split; [lia|]. split; [now apply reachable_droot|]. intros x Hx. destruct (H x Hx) as (h1 & h2 & h3 & h4 & h5).
  do 5 (split; [easy|]). unfold same_neighbours. rewrite a. repeat split.
Qed.
Lemma torn_copy_dec g D a : torn_copy g D a \/ ~ torn_copy g D a.
Proof.
  unfold torn_copy. destruct (link_target (a_value a)) as [t|]; [|right; now intros (t & X & _)].
  assert (He : id_of D t = [] \/ id_of D t <> []) by (destruct (id_of D t); [now left|now right]).
  destruct He as [He|He]; [right; intros (u & [= <-] & X & _); easy|].
  destruct (held_dec g t) as [H1|H1]; [|right; intros (u & [= <-] & _ & X & _); easy].
  destruct (held_mut_dec g t) as [H2|H2]; [right; intros (u & [= <-] & _ & _ & X); easy|]. left. now exists t.
Qed.
Lemma copy_goes g n D r : reachable D -> n < fresh D -> (forall x, held g x -> x < fresh D) -> g_copy_node g n D = Ok r -> copy_node n D = Ok r.
Proof.
  intros R Hn Hg E. destruct (weaker_copy g n D R Hn Hg) as [X|[(q & X)|X]]; [congruence|congruence|].
  destruct (copyable_dec D n) as [C|C].
  - destruct (copy_api D n R Hn C) as (D' & Y & _). congruence.
  - destruct (copy_fails_api D n R Hn C) as (q & Y). congruence.
Qed.

Section Deep.
  Variables (g : guards) (D0 : dom).
  Hypothesis R0 : reachable D0.
  Hypothesis Hg : forall x, held g x -> x < fresh D0.

  Lemma kept_held s : kept D0 s -> forall x, held g x -> x < fresh s.
  Proof. intros (H & _) x Hx. apply Hg in Hx. lia. Qed.
  Lemma kept_parent s x : kept D0 s -> x < fresh D0 -> olt (fresh D0) (l_parent (lk s) x).
  Proof.
    intros (_ & _ & K) Hx. destruct (K x Hx) as (_ & _ & _ & _ & _ & (Hp & _)). unfold parent in Hp. rewrite Hp.
    apply (bd_links D0 (reachable_bounded D0 R0) x).
  Qed.
  Lemma kept_next s x : kept D0 s -> x < fresh D0 -> olt (fresh D0) (l_next (lk s) x).
  Proof.
    intros (_ & _ & K) Hx. destruct (K x Hx) as (_ & _ & _ & _ & _ & (_ & _ & _ & Hp & _)). unfold next_sibling in Hp. rewrite Hp.
    apply (bd_links D0 (reachable_bounded D0 R0) x).
  Qed.
  Lemma kept_first s x : kept D0 s -> x < fresh D0 -> olt (fresh D0) (l_first (lk s) x).
  Proof.
    intros (_ & _ & K) Hx. destruct (K x Hx) as (_ & _ & _ & _ & _ & (_ & Hp & _)). unfold first_child in Hp. rewrite Hp.
    apply (bd_links D0 (reachable_bounded D0 R0) x).
  Qed.

  Lemma copy_stops s c : reachable s -> kept D0 s -> c < fresh D0 ->
    match u_copy_node g c s with
    | (D', Gives m) => reachable D' /\ kept D0 D' /\ m = fresh s /\ lk D' = lk s /\ fresh D' = S (fresh s)
    | (D', Panics _) => half_copied g D0 D'
    end.
  Proof.
    intros R K Hc. assert (Hcs : c < fresh s) by (destruct K; lia).
    pose proof (unc_copy_node g c s) as U. pose proof (copy_node_end g c s R Hcs (kept_held s K)) as En.
    destruct (u_copy_node g c s) as [D' [m|q]] eqn:Eu; cbn [uncaught] in U.
    - destruct (g_copy_node g c s) as [r|q|] eqn:Eg; cbn [bind] in U; try discriminate. injection U as -> ->.
      apply (copy_goes g c s r R Hcs (kept_held s K)) in Eg. destruct (reachable_inv s R) as (F & I & _).
      destruct (copy_ok s F c r I Hcs Eg) as ((C1 & C2) & E1 & I1 & E2 & E3 & _).
      assert (R' : reachable (snd r)).
      { apply (reach_step s (OCopyNode c)); [easy| |cbn; now rewrite Eg]. split; [|exact Logic.I]. intros x [<-|[]]. exact Hcs. }
      split; [exact R'|]. split; [|easy]. apply (kept_trans D0 s); [exact K|].
      destruct (copy_node_spec s F c I Hcs C1 C2) as (D1 & X1 & _ & X2 & X3 & _ & X4). rewrite X1 in Eg. injection Eg as <-. cbn [fst snd] in *.
      destruct X4 as [Y1 Y2 Y3]. split; [lia|]. split; [easy|]. intros x Hx. destruct (Y3 x Hx) as (z1 & z2 & z3 & z4 & z5 & z6 & z7).
      do 5 (split; [easy|]). unfold same_neighbours. rewrite X2. repeat split.
    - destruct (En D' q eq_refl) as [->|(Ht & pre & a & post & Ea & _ & Hs & T & N)]; [left; now split|].
      destruct (torn_copy_dec g s a) as [X|X].
      + right. exists s, c, a, q. split; [easy|]. split; [easy|]. split; [exact Hc|]. split; [|split; [easy|split; [easy|now apply T]]].
        destruct K as (_ & _ & K). destruct (K c Hc) as (_ & _ & _ & _ & <- & _). rewrite Ea. apply in_app_iff. right. now left.
      + destruct (N X) as (R' & Sc). left. split; [easy|]. apply (kept_trans D0 s); [exact K|]. exact (started_kept s c pre D' R R' Sc).
  Qed.
  Lemma append_goes s F p m : reachable s -> kept D0 s -> Rep (lk s) F -> isolated F m -> fresh D0 <= p -> p < m -> m < fresh s ->
    l_parent (lk s) p <> Some p ->
    exists s', moved s (u_append (all_guards g) p m (lk s)) = Some (s', Gives tt) /\ reachable s' /\ kept D0 s' /\ fresh s' = fresh s /\
      (forall x, x < m -> l_parent (lk s') x = l_parent (lk s) x) /\ l_parent (lk s') m = Some p.
  Proof.
    intros R K RL Hi Hp Hpm Hm Hpp. pose proof (r_wf _ _ RL) as W. assert (Hne : m <> p) by lia.
    assert (Hpp' : parent_of F p <> Some p) by (rewrite <- (r_parent _ _ RL); exact Hpp).
    destruct (append_iso_ok (lk s) F p m RL Hi Hne Hpp') as (L & E & RL').
    assert (Hold : forall x, x < fresh D0 -> x < m /\ x <> p /\ parent_of F x <> Some p).
    { intros x Hx. split; [lia|]. split; [lia|]. intros Hx'. rewrite <- (r_parent _ _ RL) in Hx'. apply (kept_parent s x K Hx) in Hx'. lia. }
    pose proof (append_free g p m s F L RL Hi Hne E RL' (fun x Hx => Hold x (Hg x Hx))) as G.
    destruct (append_iso F p m W Hi Hne) as (_ & [G1 G2 G3]).
    exists (with_lk L s). split.
    { pose proof (unc_append (all_guards g) p m (lk s)) as U. unfold g_append in G.
      destruct (append (all_guards g) p m (lk s)) as [L1|q|] eqn:Ea; cbn [bind] in G; try discriminate. apply append_less in Ea.
      assert (L1 = L) as -> by congruence.
      unfold moved. destruct (u_append (all_guards g) p m (lk s)) as [L2 [[]|q]]; cbn [uncaught_] in U; try discriminate.
      injection U as ->. reflexivity. }
    split.
    { apply (reach_step s (OAppend p m)); [easy| |cbn; unfold on_links; now rewrite E]. split; [|exact Logic.I].
      intros x [<-|[<-|[]]]; unfold exists_node; lia. }
    split.
    { destruct K as (K1 & K2 & K3). split; [easy|]. split; [easy|]. intros x Hx. destruct (K3 x Hx) as (a & b & c & d & e & f).
      do 5 (split; [easy|]). apply (neighbours_trans D0 s); [exact f|].
      apply (neighbours_nav s (with_lk L s) F (f_append p m F) x RL RL'). unfold nav_same, fi, la, nx, pv.
      destruct (Hold x Hx) as (H1 & H2 & H3). now rewrite (G1 x H1), (G2 x H1 H2), (G3 x H1 H3). }
    split; [easy|]. cbn [lk with_lk]. split.
    - intros x Hx. rewrite (r_parent _ _ RL'), (r_parent _ _ RL). now apply G1.
    - rewrite (r_parent _ _ RL'), parent_append by easy. now rewrite Nat.eqb_refl.
  Qed.

  Definition fine (s : dom) (o : run unit) : Prop :=
    match o with
    | Some (s', Gives _) => reachable s' /\ kept D0 s' /\ fresh s <= fresh s' /\ forall x, x < fresh s -> l_parent (lk s') x = l_parent (lk s) x
    | Some (s', Panics _) => half_copied g D0 s'
    | None => True
    end.
  Lemma fine_then s o k : fine s o -> (forall s', o = Some (s', Gives tt) -> reachable s' -> kept D0 s' -> fresh s <= fresh s' ->
      (forall x, x < fresh s -> l_parent (lk s') x = l_parent (lk s) x) -> fine s' (k tt s')) -> fine s (then_ o k).
  Proof.
    intros H K. destruct o as [[s1 [[]|q]]|]; cbn [then_ fine] in *; [|exact H|easy]. destruct H as (R & Kp & Hf & Hp).
    specialize (K s1 eq_refl R Kp Hf Hp). destruct (k tt s1) as [[s2 [[]|q]]|]; cbn [fine] in *; [|exact K|easy].
    destruct K as (R2 & K2 & Hf2 & Hp2). split; [easy|]. split; [easy|]. split; [lia|]. intros x Hx. rewrite Hp2 by lia. now apply Hp.
  Qed.
  Lemma fine_here s : reachable s -> kept D0 s -> fine s (Some (s, Gives tt)).
  Proof. intros R K. cbn. split; [exact R|]. split; [exact K|]. now split. Qed.
  Lemma fine_deep fuel : forall p n s, reachable s -> kept D0 s -> fresh D0 <= p -> p < fresh s -> l_parent (lk s) p <> Some p ->
    n < fresh D0 -> fine s (u_make_deep_copy fuel g p n s).
  Proof.
    induction fuel as [|fuel IH]; intros p n s R K Hp Hps Hpp Hn; [easy|]. cbn [u_make_deep_copy].
    set (body := fun child D =>
           then_ (Some (u_copy_node g child D)) (fun new_node D =>
           then_ (moved D (u_append (all_guards g) p new_node (lk D))) (fun _ D =>
           then_ (asked (reading g child (Ok tt)) D) (fun _ D =>
           if has_children (lk D) child then u_make_deep_copy fuel g new_node child D else Some (D, Gives tt))))).
    assert (Hbody : forall c s, reachable s -> kept D0 s -> p < fresh s -> l_parent (lk s) p <> Some p -> c < fresh D0 -> fine s (body c s)).
    { clear s R K Hps Hpp Hn. intros c s R K Hps Hpp Hc. unfold body.
      destruct (reachable_inv s R) as (F & I & _). pose proof (iv_iso s F I (fresh s) (le_n _)) as Hiso.
      pose proof (copy_stops s c R K Hc) as Cs. destruct (u_copy_node g c s) as [s1 [m|q]]; cbn [then_]; [|exact Cs].
      destruct Cs as (R1 & K1 & -> & Hl & Hf). pose proof (iv_rep s F I) as RL. rewrite <- Hl in RL.
      destruct (append_goes s1 F p (fresh s) R1 K1 RL Hiso Hp) as (s2 & E2 & R2 & K2 & Hf2 & Hp2 & Hm2); [lia|lia|now rewrite Hl|].
      rewrite E2. cbn [then_]. unfold reading. destruct (mem c _); cbn [asked then_]; [left; now split|].
      assert (Hfin : fine s2 (if has_children (lk s2) c then u_make_deep_copy fuel g (fresh s) c s2 else Some (s2, Gives tt))).
      { destruct (has_children _ c); [|now apply fine_here]. apply IH; try easy; [destruct K; lia|lia|].
        rewrite Hm2. intros [= X]. lia. }
      destruct (if has_children (lk s2) c then u_make_deep_copy fuel g (fresh s) c s2 else Some (s2, Gives tt)) as [[s3 [[]|q]]|];
        cbn [fine] in *; [|exact Hfin|easy].
      destruct Hfin as (R3 & K3 & Hf3 & Hp3). split; [easy|]. split; [easy|]. split; [lia|]. intros x Hx.
      rewrite Hp3 by lia. rewrite Hp2 by lia. now rewrite Hl. }
    assert (Hloop : forall fl it s, reachable s -> kept D0 s -> p < fresh s -> l_parent (lk s) p <> Some p -> olt (fresh D0) (c_next it) ->
      fine s (u_for_children g fl body it s)).
    { clear s R K Hps Hpp. induction fl as [|fl IHf]; intros it s R K Hps Hpp Hit; [easy|]. cbn [u_for_children].
      destruct (g_children_next g (lk s) it) as [r|q|] eqn:En; cbn [asked then_ fine]; [|left; now split|easy].
      apply next_goes in En. destruct r as [[c|] it']; [|now apply fine_here].
      assert (Hc : c < fresh D0 /\ olt (fresh D0) (c_next it')).
      { unfold children_next in En. destruct (children_finished _ it); [discriminate|]. destruct (c_next it) as [y|]; [|discriminate].
        injection En as <- ->. split; [now apply Hit|]. cbn [c_next]. apply kept_next; [easy|now apply Hit]. }
      destruct Hc as (Hc & Hit'). apply fine_then; [now apply Hbody|]. intros s1 _ R1 K1 Hf1 Hp1. apply IHf; try easy; [lia|].
      now rewrite Hp1. }
    unfold g_children, reading. destruct (mem n _); cbn [asked then_ fine]; [left; now split|].
    apply Hloop; try easy. unfold children, c_next. now apply kept_first.
  Qed.
  Lemma copy_deep_fine n : n < fresh D0 -> forall D' q, u_copy_node_deep g n D0 = Some (D', Panics q) -> half_copied g D0 D'.
  Proof.
    intros Hn D' q E. unfold u_copy_node_deep in E. pose proof (copy_stops D0 n R0 (kept_refl D0) Hn) as Cs.
    destruct (u_copy_node g n D0) as [s1 [m|q1]]; cbn [then_] in E; [|injection E as <- <-; exact Cs].
    destruct Cs as (R1 & K1 & -> & Hl & Hf). pose proof (fine_deep (enough D0) (fresh D0) n s1 R1 K1 (le_n _)) as H.
    assert (Hp : l_parent (lk s1) (fresh D0) <> Some (fresh D0)).
    { rewrite Hl. destruct (bd_none D0 (reachable_bounded D0 R0) (fresh D0) (le_n _)) as (_ & -> & _). discriminate. }
    specialize (H ltac:(lia) Hp Hn).
    destruct (u_make_deep_copy (enough D0) g (fresh D0) n s1) as [[s2 [[]|q2]]|]; cbn [then_ fine] in E, H; [discriminate| |discriminate].
    injection E as <- <-. exact H.
  Qed.
End Deep.
Theorem copy_deep_stops g n D : reachable D -> exists_node D n -> (forall x, held g x -> exists_node D x) -> forall D' q,
  u_copy_node_deep g n D = Some (D', Panics q) -> half_copied g D D'.
Proof. intros R Hn Hg. exact (copy_deep_fine g D R Hg n Hn). Qed.

(* ---- without guards *)
Lemma half_free_copied D D' : half_copied no_guards D D' -> reachable D' /\ kept D D'.
Proof.
  intros [H|(D1 & x & a & q & _ & _ & _ & _ & (t & _ & _ & X & _) & _)]; [exact H|]. now apply no_held in X.
Qed.
Theorem copy_deep_stops_free n D : reachable D -> exists_node D n -> forall D' q,
  u_copy_node_deep no_guards n D = Some (D', Panics q) -> reachable D' /\ kept D D'.
Proof.
  intros R Hn D' q E. apply half_free_copied. apply (copy_deep_stops no_guards n D R Hn) with (q := q); [|exact E].
  intros x X. now apply no_held in X.
Qed.

Theorem remove_stops_free n D : reachable D -> exists_node D n -> forall D' q, u_remove_node no_guards n D <> Some (D', Panics q).
Proof.
  intros R Hn D' q E. pose proof (seen_remove_node no_guards n D) as U. rewrite E in U. cbn [seen_ uncaught_] in U.
  rewrite (proj1 (doc_free D n R Hn)) in U. destruct (reachable_inv D R) as (F & I & _).
  destruct (remove_rec_finite_only (enough D) n D F (RInv_of D F I)) as (t & <- & Ht); [unfold remove_node in U; now rewrite <- U|].
  destruct (remove_node_spec D F t I Ht Hn) as (D2 & E2 & _). congruence.
Qed.
Theorem drain_stops_free n f D : reachable D -> exists_node D n -> forall D' q, u_drain no_guards n f D <> Some (D', Panics q).
Proof.
  intros R Hn D' q E. pose proof (seen_drain no_guards n f D) as U. rewrite E in U. cbn [seen uncaught] in U.
  rewrite (proj1 (proj2 (doc_free D n R Hn)) f) in U. destruct (reachable_inv D R) as (F & I & _).
  destruct (drain_exact D F n f I Hn) as [(_ & r & X)|(_ & X)]; [congruence|]. unfold drain in U. rewrite X in U. discriminate.
Qed.

Theorem remove_node_ends g n D : reachable D -> exists_node D n ->
  seen_ (u_remove_node g n D) = g_remove_node g n D /\
  forall D' q, u_remove_node g n D = Some (D', Panics q) -> half_removed g D D'.
Proof. intros R Hn. split; [apply seen_remove_node|]. now apply remove_node_stops. Qed.
Theorem drain_ends g n f D : reachable D -> exists_node D n ->
  seen (u_drain g n f D) = g_drain g n f D /\
  forall D' q, u_drain g n f D = Some (D', Panics q) -> half_removed g D D'.
Proof. intros R Hn. split; [apply seen_drain|]. now apply drain_stops. Qed.
Theorem copy_deep_ends g n D : reachable D -> exists_node D n -> (forall x, held g x -> exists_node D x) ->
  seen (u_copy_node_deep g n D) = (x <- g_copy_node_deep g n D ;; Ok (snd x, fst x)) /\
  forall D' q, u_copy_node_deep g n D = Some (D', Panics q) -> half_copied g D D'.
Proof. intros R Hn Hg. split; [apply seen_copy_deep|]. now apply copy_deep_stops. Qed.
Theorem free_ends n D : reachable D -> exists_node D n ->
  (forall D' q, u_remove_node no_guards n D <> Some (D', Panics q)) /\
  (forall f D' q, u_drain no_guards n f D <> Some (D', Panics q)) /\
  (forall D' q, u_copy_node_deep no_guards n D = Some (D', Panics q) -> reachable D' /\ kept D D').
Proof.
  intros R Hn. split; [now apply remove_stops_free|]. split; [|now apply copy_deep_stops_free].
  intros f. now apply drain_stops_free.
Qed.
