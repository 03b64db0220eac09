(* Proofs about the writer. *)
From Coq Require Import String List Bool PeanoNat NArith Permutation Sorted Lia.
From Verif Require Import Base Ids Names NamesProofs Links Tree Iter ForestSpec TreeSpec ListFacts TreeProofs ForestFacts
  IterSpec IterProofs Data Attrs AttrFacts Slab NodeApi Doc History LinkProofs InvProofs HistoryProofs TreeApi ApiProofs
  Text TextSpec Writer WriterSpec.
Import ListNotations.
Open Scope nat_scope.
Open Scope list_scope.

(* ---- sequences of results *)
Lemma flat_res_app {A B} (f : A -> res (list B)) l1 l2 a b : flat_res f l1 = Ok a -> flat_res f l2 = Ok b ->
  flat_res f (l1 ++ l2) = Ok (a ++ b).
Proof.
  revert a. induction l1 as [|x l1 IH]; intros a H1 H2; cbn in *; [now injection H1 as <-|].
  destruct (f x) as [y| |]; cbn in *; try discriminate H1.
  destruct (flat_res f l1) as [z| |] eqn:E; cbn in *; try discriminate H1. injection H1 as <-.
  rewrite (IH z eq_refl H2). cbn. now rewrite app_assoc.
Qed.
Lemma flat_res_cons {A B} (f : A -> res (list B)) x l a b : f x = Ok a -> flat_res f l = Ok b ->
  flat_res f (x :: l) = Ok (a ++ b).
Proof. intros H1 H2. cbn. now rewrite H1, H2. Qed.
Lemma flat_res_one {A B} (f : A -> res (list B)) x a : f x = Ok a -> flat_res f [x] = Ok a.
Proof. intros H. cbn. rewrite H. cbn. now rewrite app_nil_r. Qed.

(* ---- sorting *)
Lemma insert_by_perm {A} (key : A -> N) x l : Permutation (insert_by key x l) (x :: l).
Proof.
  induction l as [|y l IH]; cbn; [easy|]. destruct (key y <? key x)%N; [|easy].
  rewrite IH. apply perm_swap.
Qed.
Lemma sort_by_perm {A} (key : A -> N) l : Permutation (sort_by key l) l.
Proof. induction l as [|x l IH]; cbn; [easy|]. rewrite insert_by_perm. now constructor. Qed.
Lemma insert_by_sorted {A} (key : A -> N) x l :
  StronglySorted (fun a b => (key a <= key b)%N) l -> StronglySorted (fun a b => (key a <= key b)%N) (insert_by key x l).
Proof.
  induction 1 as [|y l Hs IH Hf]; cbn; [now repeat constructor|].
  destruct (N.ltb_spec (key y) (key x)) as [H|H].
  - constructor; [exact IH|]. apply (Permutation_Forall (Permutation_sym (insert_by_perm key x l))).
    constructor; [lia|easy].
  - constructor; [now constructor|]. constructor; [easy|]. rewrite Forall_forall in *. intros z Hz.
    specialize (Hf z Hz). cbn in Hf. lia.
Qed.
Lemma sort_by_sorted {A} (key : A -> N) l : StronglySorted (fun a b => (key a <= key b)%N) (sort_by key l).
Proof. induction l as [|x l IH]; cbn; [constructor|]. now apply insert_by_sorted. Qed.
Lemma insert_by_map {A B} (f : A -> B) (key : B -> N) x l :
  insert_by key (f x) (map f l) = map f (insert_by (fun a => key (f a)) x l).
Proof. induction l as [|y l IH]; cbn; [easy|]. destruct (key (f y) <? key (f x))%N; [|easy]. cbn. now rewrite IH. Qed.
Lemma sort_by_map {A B} (f : A -> B) (key : B -> N) l :
  sort_by key (map f l) = map f (sort_by (fun a => key (f a)) l).
Proof. induction l as [|y l IH]; cbn; [easy|]. now rewrite IH, insert_by_map. Qed.
Lemma sorted_filter {A} (R : A -> A -> Prop) p l : StronglySorted R l -> StronglySorted R (filter p l).
Proof.
  induction 1 as [|x l Hs IH Hf]; cbn; [constructor|]. destruct (p x); [|easy]. constructor; [easy|].
  rewrite Forall_forall in *. intros y Hy. apply filter_In in Hy. now apply Hf.
Qed.
Lemma sorted_strict {A} (R Q : A -> A -> Prop) l : NoDup l -> (forall a b, In a l -> In b l -> a <> b -> R a b -> Q a b) ->
  StronglySorted R l -> StronglySorted Q l.
Proof.
  intros Hn H Hs. revert Hn H. induction Hs as [|x l Hs IH Hf]; intros Hn H; [constructor|].
  inversion Hn; subst. constructor.
  - apply IH; [easy|]. intros a b Ha Hb. apply H; now right.
  - rewrite Forall_forall in *. intros y Hy. apply H; [now left|now right|intros ->; easy|]. now apply Hf.
Qed.
Lemma filter_perm {A} (p : A -> bool) l l' : Permutation l l' -> Permutation (filter p l) (filter p l').
Proof.
  induction 1 as [|x l l' H IH|x y l|l1 l2 l3 H1 IH1 H2 IH2]; cbn; [easy| | |].
  - destruct (p x); [now constructor|easy].
  - destruct (p x), (p y); try easy. apply perm_swap.
  - now rewrite IH1.
Qed.
Lemma filter_filter {A} (p q : A -> bool) l : filter p (filter q l) = filter (fun x => q x && p x) l.
Proof. induction l as [|x l IH]; cbn; [easy|]. destruct (q x); cbn; [destruct (p x)|]; now rewrite IH. Qed.

(* ---- the SVG attributes of a node *)
Definition aid_key (a : attr) : N := match a_name a with QId x => aid_idx x | QName _ => 0%N end.
Definition with_id (a : attr) : aid * attr :=
  match a_name a with QId x => (x, a) | QName _ => (A_Href, a) end.
Lemma attrs_svg_map l : attrs_svg l = map with_id (filter is_svg_attr l).
Proof.
  induction l as [|a l IH]; cbn; [easy|]. unfold with_id, is_svg_attr. destruct (a_name a) eqn:E; cbn; [|exact IH].
  rewrite E. now rewrite IH.
Qed.
Lemma attrs_get_in l a : NoDup (map a_name l) -> In a l -> attrs_get l (a_name a) = Some a.
Proof.
  induction l as [|b l IH]; cbn; [easy|]. intros Hn. inversion Hn; subst. intros [->|H].
  - now rewrite aname_eqb_refl.
  - destruct (aname_eqb_spec (a_name b) (a_name a)) as [E|]; [|now apply IH].
    exfalso. apply H1. rewrite E. now apply in_map.
Qed.

Lemma attr_id_str_ok a : exists s, attr_id_str a = Ok s /\ attr_label (QId a) s.
Proof.
  destruct (proj2 lookup_total) as (_ & H). specialize (H a). destruct H as (s & H).
  destruct (aid_eqb a A_Href) eqn:E1; [apply aid_eqb_eq in E1; subst a; eexists; split; [reflexivity|constructor]|].
  destruct (aid_eqb a A_Space) eqn:E2; [apply aid_eqb_eq in E2; subst a; eexists; split; [reflexivity|constructor]|].
  exists s. split.
  - unfold attr_id_str. destruct a; try exact H; discriminate.
  - constructor; [intros ->; discriminate E1|intros ->; discriminate E2|exact H].
Qed.

(* Events and the pairs they write. *)
Definition attr_event (e : event) (x : str * str) : Prop := e = EAttr (fst x) (snd x) \/ e = ERaw (fst x) (snd x).

Lemma bad_unicode_iff a : bad_unicode a = true <-> a_name a = QId A_Unicode /\ (forall s, a_value a <> VString s).
Proof.
  unfold bad_unicode. destruct (a_name a) as [x|s].
  - destruct (aid_eqb x A_Unicode) eqn:E.
    + apply aid_eqb_eq in E. subst x. destruct (a_value a); split; try easy; intros (_ & H); exfalso; now apply (H s).
    + assert (Hx : x <> A_Unicode) by (intros ->; discriminate E). split; [|intros ([= ->] & _); easy].
      intros H. destruct x; try discriminate H. easy.
  - now split; [|intros (? & _)].
Qed.

Lemma value_str_eq W D v : value_str W D v = write_value W D v.
Proof. destruct v as [| | | | |m|m [[| |c]|]| | | |m| | | | | | |]; reflexivity. Qed.
Lemma written_value W D a s : a_name a <> QId A_Unicode -> attr_label (a_name a) s ->
  written W D a (s, write_value W D (a_value a)).
Proof.
  intros H Hl. split; [exact Hl|]. cbn [snd]. rewrite <- value_str_eq. destruct (a_name a) as [x|x]; [|easy].
  destruct (aid_eqb x A_Unicode) eqn:E; [apply aid_eqb_eq in E; congruence|]. destruct x; try easy.
Qed.
Lemma written_unicode W D a s l : a_name a = QId A_Unicode -> a_value a = VString s -> attr_label (a_name a) l ->
  written W D a (l, write_escaped s).
Proof. intros H H2 Hl. split; [exact Hl|]. cbn [snd]. now rewrite H, H2. Qed.

Lemma write_svg_spec W D attrs : NoDup (map a_name attrs) ->
  forall l, (forall a, In a l -> In a attrs /\ is_svg_attr a = true) ->
  exists evs out, flat_res (write_svg_attr W D attrs) (map (fun a => (fst (with_id a), a_name a)) l) = Ok evs /\
    Forall2 attr_event evs out /\ Forall2 (written W D) (filter (fun a => negb (bad_unicode a)) l) out.
Proof.
  intros Hn. induction l as [|a l IH]; intros H; [exists [], []; repeat constructor|].
  destruct IH as (evs & out & E & H1 & H2); [intros b Hb; apply H; now right|].
  destruct (H a (or_introl eq_refl)) as (Ha & Hs). unfold is_svg_attr in Hs.
  destruct (a_name a) as [x|] eqn:En; [|discriminate Hs]. destruct (attr_id_str_ok x) as (s & Es & Hl).
  assert (Hget : attrs_get attrs (QId x) = Some a) by (rewrite <- En; now apply attrs_get_in).
  assert (Hw : write_svg_attr W D attrs (x, QId x) =
    if aid_eqb x A_Unicode then match a_value a with VString s0 => Ok [ERaw s (write_escaped s0)] | _ => Ok [] end
    else Ok [ERaw s (write_value W D (a_value a))]).
  { unfold write_svg_attr. cbn [fst snd]. rewrite Hget. cbn [unwrap bind]. rewrite Es. reflexivity. }
  assert (Ew : (fst (with_id a), a_name a) = (x, QId x)) by (unfold with_id; rewrite En; reflexivity).
  cbn [map filter]. rewrite Ew.
  destruct (aid_eqb x A_Unicode) eqn:Eu.
  - apply aid_eqb_eq in Eu. subst x. destruct (bad_unicode a) eqn:Eb.
    + cbn [negb]. exists evs, out. split; [|easy]. apply bad_unicode_iff in Eb. destruct Eb as (_ & Eb).
      rewrite (flat_res_cons _ _ _ [] evs); [reflexivity| |exact E]. rewrite Hw.
      destruct (a_value a); try reflexivity. exfalso. now apply (Eb s0).
    + cbn [negb]. destruct (a_value a) as [| | | | | | | | | | | | | | | | |v] eqn:Ev;
        try (exfalso; assert (Hc : bad_unicode a = true) by (unfold bad_unicode; now rewrite En, Ev); congruence).
      exists (ERaw s (write_escaped v) :: evs), ((s, write_escaped v) :: out). split.
      * rewrite (flat_res_cons _ _ _ [ERaw s (write_escaped v)] evs); [reflexivity|exact Hw|exact E].
      * split; [constructor; [now right|easy]|]. constructor; [|easy]. apply written_unicode; try easy. now rewrite En.
  - assert (Hb : bad_unicode a = false).
    { destruct (bad_unicode a) eqn:Eb; [|easy]. apply bad_unicode_iff in Eb. destruct Eb as (Eb & _).
      rewrite En in Eb. injection Eb as ->. discriminate Eu. }
    rewrite Hb. cbn [negb].
    exists (ERaw s (write_value W D (a_value a)) :: evs), ((s, write_value W D (a_value a)) :: out). split.
    + rewrite (flat_res_cons _ _ _ [ERaw s (write_value W D (a_value a))] evs); [reflexivity|exact Hw|exact E].
    + split; [constructor; [now right|easy]|]. constructor; [|easy]. apply written_value; [|now rewrite En].
      rewrite En. intros [= ->]. discriminate Eu.
Qed.

Lemma write_custom_spec W D l : exists out,
  Forall2 attr_event (flat_map (write_custom_attr W D) l) out /\
  Forall2 (written W D) (filter (fun a => negb (is_svg_attr a)) l) out.
Proof.
  induction l as [|a l (out & H1 & H2)]; [exists []; repeat constructor|].
  cbn [flat_map filter]. unfold write_custom_attr at 1, is_svg_attr at 1. destruct (a_name a) as [x|s] eqn:E; cbn.
  - exists out. now split.
  - exists ((s, write_value W D (a_value a)) :: out). split; constructor; try easy; [now right|].
    apply written_value; rewrite E; [easy|constructor].
Qed.

(* ---- namespaces *)
Lemma any_descendant_spec D F t p : Rep (lk D) F -> tree_at F t ->
  forall fuel, 2 * length (preorder t) < fuel ->
  exists b, any_descendant fuel D p (traverse (t_node t)) = Ok b /\ (b = true <-> exists n, In n (preorder t) /\ p n = true).
Proof.
  intros R Ht.
  assert (G : forall fuel pre mid it, t_state (lk D) t pre mid it -> length mid < fuel ->
     exists b, any_descendant fuel D p it = Ok b /\ (b = true <-> exists n, In n (starts mid) /\ p n = true)).
  { induction fuel as [|fuel IH]; intros pre mid it Hst Hf; [lia|]. cbn [any_descendant].
    pose proof (descendants_next_spec (lk D) F t R Ht (S fuel) pre mid it Hst Hf) as Hn.
    destruct (starts mid) as [|n l] eqn:Em.
    - destruct Hn as (it' & ->). cbn [bind]. exists false. split; [easy|]. split; [easy|]. now intros (n & [] & _).
    - destruct Hn as (pre' & mid' & it' & -> & Hst' & Ei & Hlen). cbn [bind]. injection Ei as ->.
      destruct (p n) eqn:Ep.
      + exists true. split; [easy|]. split; [|easy]. intros _. exists n. split; [now left|easy].
      + destruct (IH pre' mid' it' Hst') as (b & -> & Hb); [lia|]. exists b. split; [easy|]. rewrite Hb. split.
        * intros (m & Hm & Hp). exists m. split; [now right|easy].
        * intros (m & [<-|Hm] & Hp); [congruence|]. now exists m. }
  intros fuel Hf. destruct (G fuel [] (edges t) (traverse (t_node t))) as (b & H1 & H2).
  - split; [easy|]. unfold traverse. now rewrite edges_hd.
  - rewrite edges_length. lia.
  - exists b. split; [exact H1|]. now rewrite starts_edges in H2.
Qed.

Section Doc.
  Context (W : writers) (D : dom) (F : forest).
  Context (I : InvF D F).

  Lemma exists_root p : p < fresh D -> is_root D p = true <-> p = droot D.
  Proof. intros H. unfold is_root. rewrite ntype_eqb_eq. now apply (iv_root D F I). Qed.

  Lemma parent_exists n p : parent_of F n = Some p -> p < fresh D.
  Proof.
    intros H. destruct (Nat.lt_ge_cases p (fresh D)) as [|Hp]; [easy|].
    destruct (iv_iso D F I p Hp) as (_ & _ & E).
    pose proof (parent_child F (r_wf _ _ (iv_rep D F I)) n p H) as Hc. now rewrite E in Hc.
  Qed.

  Lemma has_tag_id n e : has_tag_name D n (QId e) = true <-> tag_name D n = QId e.
  Proof.
    unfold has_tag_name, tag_eqb. destruct (tag_name D n) as [x|x]; [|easy].
    rewrite eid_eqb_eq. split; congruence.
  Qed.

  Lemma write_namespaces_spec t n : tree_at F t -> t_node t = n -> n < fresh D ->
    exists evs out, write_namespaces D n = Ok evs /\ Forall2 attr_event evs out /\ namespaces D F n out.
  Proof.
    intros Ht En Hn. unfold write_namespaces.
    destruct (has_tag_name D n (QId E_Svg)) eqn:E1.
    2: { exists [], []. split; [easy|]. split; [constructor|]. constructor. intros (H & _).
         apply has_tag_id in H. congruence. }
    rewrite (r_parent _ _ (iv_rep D F I)). destruct (parent_of F n) as [p|] eqn:Ep.
    2: { exists [], []. split; [easy|]. split; [constructor|]. constructor. intros (_ & H). congruence. }
    destruct (is_root D p) eqn:Er.
    2: { exists [], []. split; [easy|]. split; [constructor|]. constructor. intros (_ & H). rewrite Ep in H.
         injection H as ->. pose proof (proj2 (exists_root (droot D) (iv_rlt D F I)) eq_refl). congruence. }
    assert (Htop : top_svg D F n).
    { split; [now apply has_tag_id|]. apply exists_root in Er; [congruence|]. now apply (parent_exists n). }
    destruct (any_descendant_spec D F t (fun m => has_attribute D m (QId A_Href)) (iv_rep D F I) Ht (2 * enough D))
      as (b & Eb & Hb).
    { pose proof (tree_size D F t I Ht) as Hs. rewrite En in Hs. specialize (Hs Hn). unfold enough. lia. }
    rewrite En in Eb. rewrite Eb. cbn [bind].
    assert (Hx : b = true <-> needs_xlink D F n).
    { rewrite Hb. subst n. split.
      - intros (m & Hm & Ha). apply (preorder_iff F t m (r_wf _ _ (iv_rep D F I)) Ht) in Hm.
        unfold has_attribute in Ha. apply contains_iff, in_map_iff in Ha. destruct Ha as (a & Ha & Hin). now exists m, a.
      - intros (m & a & Hm & Ha & Hname). exists m. split; [now apply (preorder_iff F t m (r_wf _ _ (iv_rep D F I)) Ht)|].
        unfold has_attribute. apply contains_iff. rewrite <- Hname. now apply in_map. }
    destruct b.
    - eexists _, [xmlns; xmlns_xlink]. split; [reflexivity|]. split.
      + repeat (constructor; [now left|]). constructor.
      + apply ns_xlink; [easy|]. now apply Hx.
    - eexists _, [xmlns]. split; [reflexivity|]. split.
      + repeat (constructor; [now left|]). constructor.
      + apply ns_svg; [easy|]. rewrite <- Hx. easy.
  Qed.

  Lemma has_id_eq n : has_id D n = negb (str_eqb (id_of D n) []).
  Proof. unfold has_id. now destruct (id_of D n). Qed.

  Lemma write_attributes_spec t n : tree_at F t -> t_node t = n -> n < fresh D ->
    exists evs out, write_attributes W D n = Ok evs /\ Forall2 attr_event evs out /\ start_tag W D F n out.
  Proof.
    intros Ht En Hn. unfold write_attributes.
    destruct (write_namespaces_spec t n Ht En Hn) as (e1 & o1 & -> & F1 & N1). cbn [bind].
    assert (Hu : NoDup (map a_name (attributes D n))) by apply (li_uniq D (iv_link D F I)).
    rewrite attrs_svg_map, map_map.
    rewrite (sort_by_map (fun a => (fst (with_id a), a_name (snd (with_id a)))) (fun x => aid_idx (fst x))). cbn [fst].
    set (l := filter is_svg_attr (attributes D n)).
    set (s := sort_by (fun a => aid_idx (fst (with_id a))) l).
    assert (Hp : Permutation s l) by apply sort_by_perm.
    assert (Hin : forall a, In a s -> In a (attributes D n) /\ is_svg_attr a = true).
    { intros a Ha. apply (Permutation_in _ Hp) in Ha. now apply filter_In in Ha. }
    replace (map (fun a => (fst (with_id a), a_name (snd (with_id a)))) s)
      with (map (fun a => (fst (with_id a), a_name a)) s).
    2: { apply map_ext. intros a. unfold with_id. now destruct (a_name a) eqn:E; cbn [snd fst]; rewrite E. }
    destruct (write_svg_spec W D (attributes D n) Hu s Hin) as (e2 & o2 & -> & F2 & N2). cbn [bind].
    destruct (write_custom_spec W D (attributes D n)) as (o3 & F3 & N3).
    eexists _, (o1 ++ (if str_eqb (id_of D n) [] then [] else [(lit "id", id_of D n)]) ++ o2 ++ o3).
    split; [reflexivity|]. split.
    - apply Forall2_app; [easy|]. apply Forall2_app.
      + rewrite has_id_eq. destruct (str_eqb (id_of D n) []); cbn [negb]; constructor; [now left|constructor].
      + now apply Forall2_app.
    - exists o1, (filter (fun a => negb (bad_unicode a)) s), o2, o3. split; [reflexivity|]. split; [exact N1|].
      split; [|split; [|split; [exact N2|exact N3]]].
      + rewrite (filter_perm _ s l Hp). unfold l. now rewrite filter_filter.
      + apply sorted_filter.
        apply (sorted_strict (fun a b => (aid_idx (fst (with_id a)) <= aid_idx (fst (with_id b)))%N)); [| |apply sort_by_sorted].
        * apply (Permutation_NoDup (Permutation_sym Hp)). apply NoDup_filter. now apply (NoDup_map_inv a_name).
        * intros a b Ha Hb Hne Hle. destruct (Hin a Ha) as (Ha1 & Ha2). destruct (Hin b Hb) as (Hb1 & Hb2).
          unfold attr_lt, with_id, is_svg_attr in *.
          destruct (a_name a) as [x|] eqn:Ea; [|discriminate Ha2]. destruct (a_name b) as [y|] eqn:Eb; [|discriminate Hb2].
          cbn [fst] in Hle. assert (aid_idx x <> aid_idx y); [|lia]. intros E. apply Hne.
          apply (unique_attr (attributes D n)); try easy. rewrite Ea, Eb. f_equal. apply aid_eqb_eq. unfold aid_eqb.
          now apply N.eqb_eq.
  Qed.

  (* ---- reading *)
  Lemma read_attrs evs out : Forall2 attr_event evs out -> forall rest flag cur stack,
    read (evs ++ rest) flag true cur stack =
    read rest flag true (mkFrame (f_flag cur) (f_name cur) (f_attrs cur ++ out) (f_kids cur)) stack.
  Proof.
    induction 1 as [|e x evs out H _ IH]; intros rest flag cur stack.
    - cbn [app]. rewrite app_nil_r. now destruct cur.
    - destruct x as [k v]. destruct H as [->| ->]; cbn [app read fst snd];
        rewrite IH; cbn [add_attr f_flag f_name f_attrs f_kids]; now rewrite <- app_assoc.
  Qed.

  Definition add_kids (l : list xitem) (f : frame) : frame :=
    mkFrame (f_flag f) (f_name f) (f_attrs f) (f_kids f ++ l).

  Lemma tag_str_ok n : exists s, tag_str (tag_name D n) = Ok s /\ tag_label (tag_name D n) s /\
    (flat_text D F -> str_eqb s (lit "text") = has_tag_name D n (QId E_Text)).
  Proof.
    destruct (tag_name D n) as [e|s] eqn:E.
    - destruct (proj1 (proj2 lookup_total) e) as (s & Hs). exists s. cbn. split; [easy|]. split; [now constructor|].
      intros _. apply eq_true_iff_eq. rewrite str_eqb_eq, has_tag_id, E. split.
      + intros ->. f_equal. apply (proj2 element_bijection e E_Text (lit "text") Hs). vm_compute. reflexivity.
      + intros [= ->]. assert (Hx : element_as_str E_Text = Ok (lit "text")) by (vm_compute; reflexivity).
        pose proof (eq_trans (eq_sym Hs) Hx) as Hy. now injection Hy.
    - exists s. cbn. split; [easy|]. split; [constructor|]. intros (_ & H). apply eq_true_iff_eq.
      rewrite str_eqb_eq, has_tag_id, E. split; [|easy]. intros ->. exfalso. now apply (H n).
  Qed.

  (* What reading the events of a tree does. *)
  Definition reads (evs : list event) (ts : list tree) : Prop :=
    forall flag, exists items flag', Forall2 (describes W D F) ts items /\
      flagged_all D flag ts items flag' /\
      (flat_text D F -> (flag = true -> forall t n, In t ts -> In n (preorder t) -> tag_name D n <> QId E_Text) ->
         Forall (preserved flag) items /\ flag' = flag) /\
      forall rest opened cur stack,
        read (evs ++ rest) flag opened cur stack =
        read rest flag' (match ts with [] => opened | _ => false end) (add_kids items cur) stack.

  Lemma add_kids_nil f : add_kids [] f = f.
  Proof. unfold add_kids. rewrite app_nil_r. now destruct f. Qed.
  Lemma add_kids_app a b f : add_kids b (add_kids a f) = add_kids (a ++ b) f.
  Proof. unfold add_kids. cbn. now rewrite app_assoc. Qed.

  Lemma flagged_app st st' st'' ts us a b : flagged_all D st ts a st' -> flagged_all D st' us b st'' -> flagged_all D st (ts ++ us) (a ++ b) st''.
  Proof.
    revert st a. induction ts as [|t ts IH]; intros st a H1 H2; inversion H1; subst; cbn; [exact H2|].
    econstructor; [eassumption|]. now apply IH.
  Qed.

  Lemma write_tree (Hin : inner D F) t : tree_at F t -> t_node t < fresh D -> ~ In (droot D) (preorder t) ->
    exists evs, flat_res (write_edge W D) (edges t) = Ok evs /\ reads evs [t].
  Proof.
    induction t as [n ts IH] using tree_ind'. intros Ht Hn Hr. cbn [t_node] in Hn.
    pose proof (r_wf _ _ (iv_rep D F I)) as Wf.
    inversion Ht as [? ? Ek Hall]; subst.
    (* the children *)
    assert (Hkids : exists evs, flat_res (write_edge W D) (flat_map edges ts) = Ok evs /\ reads evs ts).
    { assert (Hk : forall t, In t ts -> tree_at F t /\ t_node t < fresh D /\ ~ In (droot D) (preorder t)).
      { intros t Hin'. rewrite Forall_forall in Hall. split; [now apply Hall|]. split.
        - apply (tree_nodes_exist D F (T n ts) I Ht); [easy|]. cbn [preorder]. right. apply in_flat_map. exists t.
          split; [easy|apply preorder_self].
        - intros Hd. apply Hr. cbn [preorder]. right. apply in_flat_map. now exists t. }
      clear Hall Ek Ht Hr. induction ts as [|t ts IHts].
      - exists []. split; [easy|]. intros flag. exists [], flag. split; [constructor|]. split; [constructor|]. split; [easy|].
        intros rest opened cur stack. now rewrite add_kids_nil.
      - inversion IH as [|? ? IHt IHr]; subst.
        destruct (Hk t (or_introl eq_refl)) as (K1 & K2 & K3). destruct (IHt K1 K2 K3) as (e1 & E1 & R1).
        destruct (IHts IHr) as (e2 & E2 & R2); [intros u Hu; apply Hk; now right|].
        exists (e1 ++ e2). split; [cbn [flat_map]; now apply flat_res_app|].
        intros flag. destruct (R1 flag) as (i1 & f1 & D1 & G1 & P1 & Q1). destruct (R2 f1) as (i2 & f2 & D2 & G2 & P2 & Q2).
        exists (i1 ++ i2), f2. split; [exact (Forall2_app D1 D2)|]. split; [exact (flagged_app flag f1 f2 [t] ts i1 i2 G1 G2)|]. split.
        + intros Hf Hfl. destruct (P1 Hf) as (P1a & ->).
          { intros Hfl' u x [<-|[]] Hx. apply (Hfl Hfl' t x); [now left|easy]. }
          destruct (P2 Hf) as (P2a & ->). { intros Hfl' u x Hu Hx. apply (Hfl Hfl' u x); [now right|easy]. }
          split; [|easy]. now apply Forall_app.
        + intros rest opened cur stack. rewrite <- app_assoc, Q1, Q2, add_kids_app. cbn. now destruct ts. }
    destruct Hkids as (ke & Eke & Rk).
    assert (Hnt : node_type D n <> NRoot).
    { intros H. apply (iv_root D F I n Hn) in H. apply Hr. now left. }
    (* nodes that are not elements have no children *)
    assert (Hleaf : is_element D n = false -> ts = []).
    { intros He. destruct ts as [|t ts]; [easy|]. exfalso.
      assert (Hp : parent_of F (t_node t) = Some n) by (apply (wf_child F Wf); rewrite Ek; now left).
      destruct (Hin _ _ Hp) as [H|H]; [congruence|]. apply Hr. now left. }
    assert (Hplain : is_element D n = false -> has_tag_name D n (QId E_Text) = false).
    { intros He. destruct (iv_plain D F I n He) as (_ & E & _). unfold has_tag_name. now rewrite E. }
    cbn [edges].
    destruct (node_type D n) eqn:Ety.
    - easy.
    - (* element *)
      assert (Hel : is_element D n = true) by (unfold is_element; now rewrite Ety).
      destruct (tag_str_ok n) as (name & En & Hl & Htx).
      destruct (write_attributes_spec (T n ts) n Ht eq_refl Hn) as (ae & out & Ea & Fa & Sa).
      set (pre := has_tag_name D n (QId E_Text)) in *.
      exists ((EStart name :: ae ++ if pre then [EPreserve true] else []) ++ ke ++ [EEnd] ++ if pre then [EPreserve false] else []).
      split.
      + apply flat_res_cons; [|apply flat_res_app; [exact Eke|]].
        * cbn [write_edge]. rewrite Ety, En. cbn [bind]. rewrite Ea. reflexivity.
        * apply flat_res_one. cbn [write_edge]. now rewrite Hel.
      + intros flag. set (inside := if pre then true else flag).
        destruct (Rk inside) as (items & f1 & D1 & G1 & P1 & Q1).
        exists [XElement flag name out items f1], (if pre then false else f1). split.
        { constructor; [|constructor]. now constructor. }
        split.
        { apply (fa_cons D flag (if pre then false else f1) (if pre then false else f1)); [|constructor]. unfold inside, pre in *. pose proof (has_tag_id n E_Text) as Hx. destruct (has_tag_name D n (QId E_Text)).
          - constructor; [now apply Hx|exact G1].
          - constructor; [|exact G1]. intros E. apply Hx in E. discriminate E. }
        split.
        * intros Hf Hfl. assert (Hpf : pre = true -> flag = false).
          { intros Hp. destruct flag; [|easy]. exfalso. apply (Hfl eq_refl (T n ts) n); [now left|now left|].
            now apply has_tag_id. }
          assert (Hi : inside = flag || str_eqb name (lit "text")).
          { rewrite (Htx Hf). fold pre. unfold inside. destruct pre; [now rewrite orb_true_r|]. now rewrite orb_false_r. }
          destruct (P1 Hf) as (P1a & P1b).
          { intros Hins t x Hint Hx Hxt. destruct pre eqn:Epre.
            - assert (Hnx : n = x).
              { apply (proj1 Hf); [now apply has_tag_id|easy|].
                apply (preorder_iff F (T n ts) x Wf Ht). cbn [preorder]. right. apply in_flat_map. now exists t. }
              subst x. rewrite Forall_forall in Hall.
              apply (preorder_iff F t n Wf (Hall t Hint)) in Hx.
              apply (tree_no_loop F (T n ts) (t_node t) Wf Ht Hx). cbn [t_node]. apply (wf_child F Wf). rewrite Ek. now apply in_map.
            - apply (Hfl Hins (T n ts) x); [now left| |easy]. cbn [preorder]. right. apply in_flat_map. now exists t. }
          rewrite P1b in *. split.
          { constructor; [|constructor]. rewrite Hi. constructor. now rewrite <- Hi. }
          unfold inside in *. destruct pre; [now rewrite Hpf|easy].
        * intros rest opened cur stack. rewrite <- !app_assoc. cbn [app read]. rewrite <- app_assoc.
          rewrite (read_attrs ae out Fa). cbn [f_flag f_name f_attrs f_kids app].
          replace (read ((if pre then [EPreserve true] else []) ++ ke ++ EEnd :: (if pre then [EPreserve false] else []) ++ rest)
                     flag true (mkFrame flag name out []) (cur :: stack))
            with (read (ke ++ EEnd :: (if pre then [EPreserve false] else []) ++ rest) inside true (mkFrame flag name out []) (cur :: stack)).
          2: { unfold inside. now destruct pre. }
          rewrite Q1. cbn [read]. unfold add_kids at 1. unfold close. cbn [f_flag f_name f_attrs f_kids app].
          change (add_kid ?x ?c) with (add_kids [x] c). now destruct pre.
    - assert (Hel : is_element D n = false) by (unfold is_element; now rewrite Ety).
      rewrite (Hleaf Hel) in *. cbn [flat_map app]. exists [EComment (text_of D n)]. split.
      + cbn. rewrite Ety, Hel, (Hplain Hel). reflexivity.
      + intros flag. exists [XComment flag (text_of D n)], flag. split; [constructor; [now constructor|constructor]|].
        split; [apply (fa_cons D flag flag flag); constructor|]. split; [|easy]. intros _ _. split; [|easy]. repeat constructor.
    - assert (Hel : is_element D n = false) by (unfold is_element; now rewrite Ety).
      rewrite (Hleaf Hel) in *. cbn [flat_map app]. exists [EText (text_of D n)]. split.
      + cbn. rewrite Ety, Hel, (Hplain Hel). reflexivity.
      + intros flag. exists [XText flag (text_of D n)], flag. split; [constructor; [now constructor|constructor]|].
        split; [apply (fa_cons D flag flag flag); constructor|]. split; [|easy]. intros _ _. split; [|easy]. repeat constructor.
  Qed.

  (* The whole document. *)
  Theorem write_dom_spec (Hin : inner D F) ts : tree_at F (T (droot D) ts) ->
    exists evs items, write_dom W D = Ok evs /\ read_back evs = Some items /\ Forall2 (describes W D F) ts items /\
      (flat_text D F -> Forall (preserved false) items) /\ exists last, flagged_all D false ts items last.
  Proof.
    intros Ht. pose proof (r_wf _ _ (iv_rep D F I)) as Wf. pose proof (iv_rlt D F I) as Hroot.
    pose proof (tree_size D F (T (droot D) ts) I Ht Hroot) as Hsz.
    assert (Hcol : traverse_collect (2 * enough D) (lk D) (traverse (droot D)) = Ok (edges (T (droot D) ts))).
    { apply (traverse_collect_spec (lk D) F (T (droot D) ts)); [apply I|easy|]. rewrite edges_length. unfold enough. lia. }
    assert (Hk : exists evs, flat_res (write_edge W D) (flat_map edges ts) = Ok evs /\ reads evs ts).
    { inversion Ht as [? ? Ek Hall]; subst.
      assert (Hk : forall t, In t ts -> tree_at F t /\ t_node t < fresh D /\ ~ In (droot D) (preorder t)).
      { intros t Hint. rewrite Forall_forall in Hall. split; [now apply Hall|]. split.
        - apply (tree_nodes_exist D F (T (droot D) ts) I Ht); [easy|]. cbn [preorder]. right. apply in_flat_map. exists t.
          split; [easy|apply preorder_self].
        - intros Hd. apply (preorder_iff F t (droot D) Wf (Hall t Hint)) in Hd.
          apply (tree_no_loop F (T (droot D) ts) (t_node t) Wf Ht Hd). cbn [t_node]. apply (wf_child F Wf). rewrite Ek. now apply in_map. }
      clear Hall Ek Ht Hsz Hcol. induction ts as [|t ts IHts].
      - exists []. split; [easy|]. intros flag. exists [], flag. split; [constructor|]. split; [constructor|]. split; [easy|].
        intros rest opened cur stack. now rewrite add_kids_nil.
      - destruct (Hk t (or_introl eq_refl)) as (K1 & K2 & K3). destruct (write_tree Hin t K1 K2 K3) as (e1 & E1 & R1).
        destruct IHts as (e2 & E2 & R2); [intros u Hu; apply Hk; now right|].
        exists (e1 ++ e2). split; [cbn [flat_map]; now apply flat_res_app|].
        intros flag. destruct (R1 flag) as (i1 & f1 & D1 & G1 & P1 & Q1). destruct (R2 f1) as (i2 & f2 & D2 & G2 & P2 & Q2).
        exists (i1 ++ i2), f2. split; [exact (Forall2_app D1 D2)|]. split; [exact (flagged_app flag f1 f2 [t] ts i1 i2 G1 G2)|]. split.
        + intros Hf Hfl. destruct (P1 Hf) as (P1a & ->).
          { intros Hfl' u x [<-|[]] Hx. apply (Hfl Hfl' t x); [now left|easy]. }
          destruct (P2 Hf) as (P2a & ->). { intros Hfl' u x Hu Hx. apply (Hfl Hfl' u x); [now right|easy]. }
          split; [|easy]. now apply Forall_app.
        + intros rest opened cur stack. rewrite <- app_assoc, Q1, Q2, add_kids_app. cbn. now destruct ts. }
    destruct Hk as (evs & E & R). destruct (R false) as (items & flag' & Hd & Hg & Hp & Hr).
    exists evs, items. split; [|split; [|split; [exact Hd|]]].
    - unfold write_dom. rewrite Hcol. cbn [bind edges].
      assert (Hty : node_type D (droot D) = NRoot) by (now apply (iv_root D F I (droot D) Hroot)).
      assert (Hel : is_element D (droot D) = false) by (unfold is_element; now rewrite Hty).
      assert (Hx : has_tag_name D (droot D) (QId E_Text) = false).
      { destruct (iv_plain D F I (droot D) Hel) as (_ & Et & _). unfold has_tag_name. now rewrite Et. }
      rewrite (flat_res_cons _ _ _ [] (evs ++ [])); [now rewrite app_nil_r| |].
      + cbn [write_edge]. now rewrite Hty.
      + apply flat_res_app; [exact E|]. apply flat_res_one. cbn [write_edge]. now rewrite Hel, Hx.
    - unfold read_back. rewrite <- (app_nil_r evs). rewrite Hr. cbn. reflexivity.
    - split; [|now exists flag']. intros Hf. apply Hp; [exact Hf|]. easy.
  Qed.
End Doc.
