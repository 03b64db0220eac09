From Coq Require Import String List Bool PeanoNat NArith Lia.
From Verif Require Import Base Ids Names Links Tree Iter ForestSpec TreeSpec ListFacts TreeProofs TreeApi IterSpec Data Attrs Slab NodeApi
  Doc AttrFacts Writer WriterSpec WriterProofs WriterApi Parser Display DisplaySpec DisplayProofs History Loops InvProofs HistoryProofs ApiProofs SessionProofs
  Guards GuardDoc GuardIter GuardWriter GuardSpec GuardIterSpec GuardIterProofs GuardPrint GuardPrintSpec.
Import ListNotations.
Open Scope list_scope.

(* ---- printing *)
Definition aim_held (g : guards) (a : attr) : bool := onode g (link_target (a_value a)).
Lemma write_value_eq g W D v :
  g_write_value g W D v = if onode g (link_target v) then Panic PBorrow else Ok (write_value W D v).
Proof. destruct v; try reflexivity; cbn [g_write_value link_target onode]; unfold reading; destruct (hm g _); reflexivity. Qed.
Lemma display_attr_eq g W D a :
  g_display_attr g W D a = if aim_held g a then Panic PBorrow else display_attr W D a.
Proof.
  unfold g_display_attr, display_attr, aim_held. rewrite write_value_eq.
  destruct (display_aname_ok (a_name a)) as (s & E & _). rewrite E. cbn [bind].
  destruct (onode g _); reflexivity.
Qed.
Lemma display_loop_eq g W D l : forall out,
  g_display_loop g W D l out = if existsb (aim_held g) l then Panic PBorrow else display_loop W D l out.
Proof.
  induction l as [|a l IH]; intros out; cbn [g_display_loop display_loop existsb]; [reflexivity|].
  rewrite display_attr_eq. destruct (aim_held g a); [reflexivity|].
  destruct (display_attr_ok W D a) as (x & E & _). rewrite E. cbn [bind orb]. apply IH.
Qed.
Lemma display_attrs_eq g W D l :
  g_display_attrs g W D l = if existsb (aim_held g) l then Panic PBorrow else display_attrs W D l.
Proof.
  destruct l as [|a l]; [reflexivity|]. unfold g_display_attrs, display_attrs. rewrite display_loop_eq.
  destruct (existsb _ _); reflexivity.
Qed.
Lemma display_users_eq g D l :
  g_display_users g D l =
  if existsb (fun n => hm g n) l then Panic PBorrow
  else Ok (flat_map (fun m => lit " '" ++ id_of D m ++ lit "'") l).
Proof.
  induction l as [|m l IH]; cbn [g_display_users existsb flat_map]; [reflexivity|]. unfold reading.
  destruct (hm g m); [reflexivity|]. rewrite IH. cbn [orb]. destruct (existsb _ l); reflexivity.
Qed.
Definition users_shown (g : guards) (D : dom) (n : nid) (b : bool) : bool :=
  b && existsb (fun n => hm g n) (linked_nodes D n).
Lemma attrs_ok W D l : exists s, display_attrs W D l = Ok s.
Proof. destruct (attrs_printed W D l) as (xs & _ & E & _). eexists. exact E. Qed.
Lemma element_content_eq g W D n b :
  g_element_content g W D n b =
  if existsb (aim_held g) (attributes D n) || users_shown g D n b then Panic PBorrow else element_content W D n b.
Proof.
  unfold g_element_content, element_content, users_shown. rewrite display_attrs_eq.
  destruct (existsb (aim_held g) _); [reflexivity|]. cbn [orb].
  destruct (attrs_ok W D (attributes D n)) as (s & E). rewrite E. cbn [bind].
  destruct b; cbn [andb]; [|reflexivity].
  destruct (linked_nodes D n) as [|m l]; [reflexivity|]. rewrite display_users_eq.
  destruct (existsb _ _); reflexivity.
Qed.
Definition shown_held (g : guards) (D : dom) (n : nid) (b : bool) : bool :=
  hm g n || is_element D n && (existsb (aim_held g) (attributes D n) || users_shown g D n b).
Lemma is_element_type D n : is_element D n = match node_type D n with NElement => true | _ => false end.
Proof. unfold is_element. now destruct (node_type D n). Qed.
Lemma display_node_eq g W D n :
  g_display_node g W D n = if shown_held g D n false then Panic PBorrow else display_node W D n.
Proof.
  unfold g_display_node, display_node, shown_held, reading. rewrite is_element_type.
  destruct (hm g n); [reflexivity|]. cbn [orb]. destruct (node_type D n); try reflexivity.
  cbn [andb]. destruct (display_tag_ok (tag_name D n)) as (s & E & _). rewrite E. cbn [bind].
  rewrite element_content_eq. destruct (_ || _); reflexivity.
Qed.
Lemma debug_node_eq g W D n :
  g_debug_node g W D n = if shown_held g D n true then Panic PBorrow else debug_node W D n.
Proof.
  unfold g_debug_node, debug_node, shown_held, reading. rewrite is_element_type.
  destruct (hm g n); [reflexivity|]. cbn [orb]. destruct (node_type D n); try reflexivity.
  cbn [andb]. destruct (display_tag_ok (tag_name D n)) as (s & E & _). rewrite E. cbn [bind].
  rewrite element_content_eq. destruct (_ || _); reflexivity.
Qed.
Lemma aims_held g l : existsb (aim_held g) l = true <->
  exists a x, In a l /\ link_target (a_value a) = Some x /\ held_mut g x.
Proof.
  rewrite existsb_exists. split.
  - intros (a & Ha & H). apply onode_iff in H. destruct H as (c & E & Hc). now exists a, c.
  - intros (a & x & Ha & E & Hx). exists a. split; [exact Ha|]. apply onode_iff. now exists x.
Qed.
Lemma shown_false g D n : shown_held g D n false = true <-> print_blocked g D n.
Proof.
  unfold shown_held, users_shown, print_blocked. cbn [andb]. rewrite orb_false_r, orb_true_iff, andb_true_iff, hm_iff, aims_held.
  reflexivity.
Qed.
Lemma shown_true g D n : shown_held g D n true = true <-> debug_blocked g D n.
Proof.
  unfold shown_held, users_shown, debug_blocked, print_blocked. cbn [andb].
  rewrite orb_true_iff, andb_true_iff, orb_true_iff, hm_iff, aims_held, existsb_held. unfold some_held. tauto.
Qed.

Theorem display_under g W D n :
  exists s, display_node W D n = Ok s /\ same_unless (print_blocked g D n) (Ok s) (g_display_node g W D n).
Proof.
  destruct (display_printed W D n) as (s & E & _). exists s. split; [exact E|].
  eapply unless_if; [apply shown_false|]. now rewrite display_node_eq, E.
Qed.
Theorem debug_under g W D n :
  exists s, debug_node W D n = Ok s /\ same_unless (debug_blocked g D n) (Ok s) (g_debug_node g W D n).
Proof.
  destruct (debug_printed W D n) as (s & E & _). exists s. split; [exact E|].
  eapply unless_if; [apply shown_true|]. now rewrite debug_node_eq, E.
Qed.

(* ---- svg_element() *)
Definition is_svg (D : dom) (n : nid) : bool := match tag_name D n with QId id => eid_eqb id E_Svg | QName _ => false end.
Fixpoint until_svg (D : dom) (l : list nid) : list nid :=
  match l with
  | [] => []
  | x :: t => if is_svg D x then [x] else x :: until_svg D t
  end.
Lemma is_svg_iff D n : is_svg D n = true <-> tag_name D n = QId E_Svg.
Proof.
  unfold is_svg. destruct (tag_name D n) as [i|s].
  - rewrite eid_eqb_eq. split; [now intros ->|now intros [= ->]].
  - easy.
Qed.
Lemma find_filter D l : option_map snd (find (fun p => eid_eqb (fst p) E_Svg) (filter_svg D l)) = find (is_svg D) l.
Proof.
  induction l as [|x l IH]; [reflexivity|]. cbn [filter_svg find]. unfold is_svg at 1.
  destruct (tag_name D x) as [i|s]; [|exact IH]. cbn [find fst]. destruct (eid_eqb i E_Svg); [reflexivity|exact IH].
Qed.
Lemma until_iff D l x : In x (until_svg D l) <-> exists pre post, l = pre ++ x :: post /\ forall y, In y pre -> tag_name D y <> QId E_Svg.
Proof.
  induction l as [|y l IH]; cbn [until_svg].
  - split; [intros []|]. intros (pre & post & E & _). now destruct pre.
  - split.
    + intros H. destruct (is_svg D y) eqn:Ey.
      * destruct H as [<-|[]]. now exists [], l.
      * destruct H as [<-|H]; [now exists [], l|]. apply IH in H. destruct H as (pre & post & -> & Hp).
        exists (y :: pre), post. split; [reflexivity|]. intros z [<-|Hz]; [|now apply Hp].
        rewrite <- is_svg_iff. now rewrite Ey.
    + intros (pre & post & E & Hp). destruct pre as [|z pre]; injection E as -> ->.
      * destruct (is_svg D x); now left.
      * assert (Ez : is_svg D z = false). { destruct (is_svg D z) eqn:Ez; [|reflexivity]. apply is_svg_iff in Ez. exfalso. apply (Hp z); [now left|exact Ez]. }
        rewrite Ez. right. apply IH. exists pre, post. split; [reflexivity|]. intros y Hy. apply Hp. now right.
Qed.
Lemma find_svg_eq g D b fuel : forall it l, children_list fuel (lk D) it = Ok l -> c_back it = b ->
  g_find_svg fuel g D it =
  if onode g b || existsb (fun n => hm g n) (until_svg D l) then Panic PBorrow else Ok (find (is_svg D) l).
Proof.
  induction fuel as [|f IH]; intros it l; cbn [children_list g_find_svg]; [discriminate|].
  rewrite g_children_next_eq. intros E Hb. rewrite Hb. unfold children_next in E |- *.
  destruct (children_finished (lk D) it).
  - injection E as <-. cbn [negb andb existsb until_svg]. rewrite !orb_false_r. destruct (onode g b); reflexivity.
  - cbn [negb andb]. destruct (c_next it) as [n|].
    + destruct (children_list f (lk D) _) as [l'| |] eqn:El; cbn [bind] in E; try discriminate.
      injection E as <-. cbn [existsb onode until_svg find]. destruct (onode g b) eqn:Eb; [reflexivity|]. cbn [orb].
      destruct (hm g n) eqn:En.
      * destruct (is_svg D n); cbn [existsb]; rewrite En; reflexivity.
      * cbn [bind orb]. unfold reading. rewrite En. specialize (IH _ _ El Hb). cbn [orb] in IH.
        unfold is_svg at 1 2. destruct (tag_name D n) as [i|s].
        -- destruct (eid_eqb i E_Svg); cbn [existsb]; rewrite En; [reflexivity|]. exact IH.
        -- cbn [existsb]. rewrite En. exact IH.
    + injection E as <-. cbn [existsb onode until_svg find]. rewrite !orb_false_r. destruct (onode g b); reflexivity.
Qed.

Theorem svg_element_under g D F : reachable D -> shows (lk D) F ->
  exists r, svg_element D = Ok r /\ same_unless (svg_blocked g D F) (Ok r) (g_svg_element g D).
Proof.
  intros H S. pose proof (proj1 (shows_Rep _ _) S) as R. pose proof (children_few D F (droot D) H S) as Hf.
  pose proof (children_list_eq (lk D) F (droot D) (enough D) R Hf) as El.
  exists (find (is_svg D) (children_of F (droot D))). split.
  - unfold svg_element. rewrite El. cbn [bind]. now rewrite find_filter.
  - apply (unless_if _ (hm g (droot D) || (onode g (last_child (lk D) (droot D)) ||
              existsb (fun n => hm g n) (until_svg D (children_of F (droot D)))))).
    + rewrite !orb_true_iff, hm_iff, onode_iff, existsb_held. unfold svg_blocked, some_held.
      unfold last_child. rewrite (r_last (lk D) F R). change (last_error (children_of F (droot D))) with (final (children_of F (droot D))).
      split.
      * intros [Hr|[(c & E & Hc)|(x & Hx & Hh)]].
        -- exists (droot D). split; [exact Hr|now left].
        -- exists c. split; [exact Hc|]. right. now left.
        -- exists x. split; [exact Hh|]. right. right. now apply until_iff.
      * intros (x & Hh & [->|[E|Hx]]); [now left|right; left; now exists x|]. right. right. exists x. split; [now apply until_iff|exact Hh].
    + unfold g_svg_element, g_children, reading. destruct (hm g (droot D)); [reflexivity|]. cbn [bind orb].
      exact (find_svg_eq g D _ (enough D) _ _ El eq_refl).
Qed.
