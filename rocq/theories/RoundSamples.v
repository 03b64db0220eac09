(* A concrete document that can be written and read again, and some that cannot. *)
From Coq Require Import String List Bool PeanoNat NArith ZArith.
From Coq Require Import SpecFloat.
From Verif Require Import Base Ids Names NamesProofs Links Tree Iter ForestSpec TreeSpec ForestFacts IterSpec ListFacts Data Attrs AttrFacts AttrSpec Slab NodeApi
  Doc DocSpec History Replay InvProofs HistoryProofs TreeApi ApiProofs DocApi Samples Text TextSpec TextSamples Writer WriterSpec
  WriterSamples Parser ParserSpec ParserSamples RoundSpec.
Import ListNotations.
Open Scope string_scope.
Open Scope nat_scope.
Open Scope list_scope.

(* Value parsers and printers that fit together. *)
Definition round_paint (s : str) : option paint :=
  if eqs s "none" then Some PtNone
  else if eqs s "red" then Some (PtColor red_color)
  else match starts (lit "url(#") s with
       | Some r => match split_at 41 r with
                   | [i; []] => Some (PtIri i None)
                   | [i; f] => if eqs f " none" then Some (PtIri i (Some FNone)) else None
                   | _ => None
                   end
       | None => None
       end.
Definition PR : values :=
  mkValues sample_iri sample_func round_paint sample_length (fun s => match s with [] => None | _ => Some 1%N end) sample_number
    (fun _ => Some 2%N) sample_color (fun _ => Some 3%N) (fun s => map Some s) (fun l => N.of_nat (length l)) (fun _ => Some 4%N)
    (fun _ => Some 5%N) (fun _ => Some 6%N) (fun _ => Some 7%N) (fun _ => false) (fun _ => false) (fun p => N.eqb p 0) (fun _ => false)
    sample_decls sample_sheet.
Definition round_writers : writers :=
  mkWriters (fun x => if SFeqb x half then lit "0.5" else lit "2") (fun _ => lit "2") (fun _ => lit "red") (fun _ => lit "none")
    (fun _ => lit "1 2") (fun _ => lit "5deg") (fun _ => lit "1 2") (fun _ => lit "M 1 2") (fun _ => lit "1,2") (fun _ => lit "scale(2)")
    (fun _ => lit "0 0 1 2").

(* Nodes inside of a text element, checked with the list of ancestors. *)
Definition in_text_b (D : dom) (n : nid) : bool :=
  match Iter.ancestors (enough D) (lk D) n with
  | Ok l => existsb (fun a => has_tag_name D a (QId E_Text)) l
  | _ => false
  end.
Lemma chain_anc F n l : ancestor_chain F n l -> forall a, In a l -> anc_or_self F a n.
Proof.
  induction 1 as [n E|n p l E H IH]; intros a [<-|Ha]; [constructor|easy|constructor|]. apply (aos_up F a n p E). now apply IH.
Qed.
Lemma in_text_b_ok D F n : reachable_tame D -> shows (lk D) F -> n < fresh D -> in_text_b D n = true -> in_text D F n.
Proof.
  intros H S Hn E. unfold in_text_b in E.
  destruct (reach_ancestors D F n (tame_reachable D H) (tame_acyclic D H) Hn S) as (l & Hl & El). rewrite El in E.
  apply existsb_exists in E. destruct E as (a & Ha & Et). exists a. split; [now apply (chain_anc F n l)|].
  unfold has_tag_name in Et. destruct (tag_name D a) as [e|s]; [|discriminate Et]. cbn [tag_eqb] in Et. apply eid_eqb_eq in Et. now subst e.
Qed.

(* No two texts side by side. *)
Definition apart_b (D : dom) : bool :=
  forallb (fun n => if is_text D n then match next_sibling (lk D) n with Some m => negb (is_text D m) | None => true end else true)
    (seq 0 (fresh D)).

Lemma apart_b_ok D F : reachable D -> shows (lk D) F -> apart_b D = true ->
  forall p l1 a b l2, children_of F p = l1 ++ a :: b :: l2 -> is_text D a = true -> is_text D b = true -> False.
Proof.
  intros R S H p l1 a b l2 E Ha Hb. pose proof (shows_inv D F R S) as I. unfold apart_b in H. rewrite forallb_forall in H.
  pose proof (sh_wf _ _ S) as Wf.
  assert (Hp : parent_of F a = Some p) by (apply (wf_child F Wf); rewrite E; apply in_or_app; right; now left).
  destruct (Nat.lt_ge_cases a (fresh D)) as [Hn|Hn].
  - specialize (H a). rewrite in_seq in H. specialize (H (conj (Nat.le_0_l a) Hn)). rewrite Ha in H.
    pose proof (wf_nodup F Wf a) as Nd. rewrite (sh_next _ _ S) in H. rewrite (wf_parent F Wf a p Hp), E in Nd, H.
    rewrite (split_succ _ _ _ _ Nd), Hb in H. discriminate H.
  - destruct (iv_iso D F I a Hn) as (E' & _). congruence.
Qed.

(* No two dashes, no dash at the end. *)
Fixpoint dashes (s : str) : bool :=
  match s with
  | [] => false
  | c :: t => (N.eqb c 45 && match t with [] => true | d :: _ => N.eqb d 45 end) || dashes t
  end.
Lemma comment_b_ok s : forallb xml_char s = true -> dashes s = false -> comment_ok s.
Proof.
  intros H D. split; [easy|]. clear H. split.
  - intros a b E. revert s D E. induction a as [|x a IH]; intros s D ->; [discriminate D|]. cbn [app dashes] in D.
    apply orb_false_iff in D. destruct D as (_ & D). exact (IH _ D eq_refl).
  - intros a E. revert s D E. induction a as [|x a IH]; intros s D ->; [discriminate D|]. cbn [app dashes] in D.
    apply orb_false_iff in D. destruct D as (_ & D). exact (IH _ D eq_refl).
Qed.

(* 0 root, 2 a comment, 1 svg: 3 rect with a paint and an opacity, 4 and 5 gradients, 6 text: 7 "hi ", 8 tspan:
   9 "you"; 10 title: 11 "My title"; 12 text with preserved space: 13 " a  b " *)
Definition rdoc_ops : list op :=
  [ OCreateElement (QId E_Svg); OAppend 0 1;
    OCreateNode NComment (lit "note"); OPrepend 0 2;
    OCreateElement (QId E_Rect); OAppend 1 3; OSetId 3 (lit "r");
    OCreateElement (QId E_LinearGradient); OAppend 1 4; OSetId 4 (lit "lg");
    OCreateElement (QId E_LinearGradient); OAppend 1 5; OSetId 5 (lit "lg2");
    OCreateElement (QId E_Text); OAppend 1 6;
    OCreateNode NText (lit "hi "); OAppend 6 7;
    OCreateElement (QId E_Tspan); OAppend 6 8;
    OCreateNode NText (lit "you"); OAppend 8 9;
    OCreateElement (QId E_Title); OAppend 1 10;
    OCreateNode NText (lit "My title"); OAppend 10 11;
    OCreateElement (QId E_Text); OAppend 1 12;
    OCreateNode NText (lit " a  b "); OAppend 12 13;
    OSetAttribute 3 (mkAttr (QId A_Fill) (VPaint 4 (Some FNone)));
    OSetAttribute 3 (mkAttr (QId A_Opacity) (VNumber half));
    OSetAttribute 5 (mkAttr (QId A_Href) (VLink 4));
    OSetAttribute 5 (mkAttr (QId A_Unicode) (VString (lit "<&>")));
    OSetAttribute 12 (space "preserve") ].
Definition rdoc : dom := get (run all_check rdoc_ops).
Lemma rdoc_tame : reachable_tame rdoc.
Proof. apply sample_tame. vm_compute. reflexivity. Qed.
Definition rdoc_tree : tree :=
  T 0 [T 2 []; T 1 [T 3 []; T 4 []; T 5 []; T 6 [T 7 []; T 8 [T 9 []]]; T 10 [T 11 []]; T 12 [T 13 []]]].

Ltac cases H := repeat (destruct H as [H|H]; [subst|]); try contradiction H.

Lemma rdoc_forest : exists F, shows (lk rdoc) F /\ textual rdoc F /\ tree_at F rdoc_tree.
Proof.
  destruct (sample_forest rdoc rdoc_tame) as (F & S & X); [vm_compute; reflexivity|]. exists F. split; [exact S|]. split; [exact X|].
  apply (tree_b_ok rdoc F _ S). vm_compute. reflexivity.
Qed.
Lemma nodes_in l (P : nid -> bool) : forallb P l = true -> forall n, In n l -> P n = true.
Proof. intros H n Hn. rewrite forallb_forall in H. now apply H. Qed.

Definition tag_b (D : dom) (n : nid) : bool :=
  negb (is_element D n) ||
  match tag_name D n with
  | QId e => negb (eid_eqb e E_Style) && (negb (eid_eqb e E_Tspan || eid_eqb e E_Tref) || in_text_b D n)
  | QName _ => false
  end.
Lemma tag_b_ok D n : tag_b D n = true -> is_element D n = true ->
  exists e, tag_name D n = QId e /\ e <> E_Style /\ (e = E_Tspan \/ e = E_Tref -> in_text_b D n = true).
Proof.
  unfold tag_b. intros B He. rewrite He in B. cbn [negb orb] in B. destruct (tag_name D n) as [e|s]; [|discriminate B].
  generalize dependent (in_text_b D n). intros b B. apply andb_true_iff in B. destruct B as (B1 & B2).
  exists e. split; [reflexivity|]. split.
  - intros ->. vm_compute in B1. discriminate B1.
  - intros [->| ->]; exact B2.
Qed.
Definition text_b (D : dom) (n : nid) : bool :=
  negb (is_text D n) ||
  (negb (is_empty (text_of D n)) && forallb text_char (text_of D n) && existsb (fun c => negb (is_white c)) (text_of D n)).

Lemma text_b_ok D n : text_b D n = true -> is_text D n = true ->
  text_of D n <> [] /\ forallb text_char (text_of D n) = true /\ exists c, In c (text_of D n) /\ is_white c = false.
Proof.
  unfold text_b. intros B Ht. rewrite Ht in B. cbn [negb orb] in B. apply andb_true_iff in B. destruct B as (B & B3).
  apply andb_true_iff in B. destruct B as (B1 & B2). split; [intros E; now rewrite E in B1|]. split; [exact B2|].
  apply existsb_exists in B3. destruct B3 as (c & Hc & Hw). exists c. split; [exact Hc|]. now destruct (is_white c).
Qed.

Lemma rdoc_portable F : shows (lk rdoc) F -> textual rdoc F -> tree_at F rdoc_tree -> portable PR round_writers rdoc F rdoc_tree.
Proof.
  intros S X Ht. pose proof (tame_reachable _ rdoc_tame) as R.
  assert (Hlt : forall n, In n (preorder rdoc_tree) -> n < fresh rdoc).
  { intros n Hn. apply Nat.ltb_lt. revert n Hn. apply nodes_in. vm_compute. reflexivity. }
  split.
  - exact (tx_top _ _ X).
  - exists [T 2 []], (T 1 [T 3 []; T 4 []; T 5 []; T 6 [T 7 []; T 8 [T 9 []]]; T 10 [T 11 []]; T 12 [T 13 []]]), [].
    split; [reflexivity|]. split; [vm_compute; reflexivity|]. split; [vm_compute; reflexivity|].
    intros c [<-|[]]. vm_compute. reflexivity.
  - exact (tx_inner _ _ X).
  - intros n Hn He.
    assert (B : tag_b rdoc n = true) by (revert n Hn He; intros n Hn _; revert n Hn; apply nodes_in; vm_compute; reflexivity).
    destruct (tag_b_ok rdoc n B He) as (e & E1 & E2 & E3). exists e. split; [exact E1|]. split; [exact E2|].
    intros Hs. apply (in_text_b_ok rdoc F n rdoc_tame S (Hlt n Hn) (E3 Hs)).
  - apply flat_b_ok; [exact R|exact S|]. vm_compute. reflexivity.
  - apply nodes_in. vm_compute. reflexivity.
  - intros n x Hn Hx. cbn in Hn. cases Hn.
    all: vm_compute in Hx; cases Hx.
    all: try discriminate.
    all: eexists; eexists; split; [vm_compute; reflexivity|]; split; [vm_compute; reflexivity|];
      split; [vm_compute; reflexivity|]; split; [vm_compute; discriminate|].
    all: split; [first [vm_compute; reflexivity|intros t E; vm_compute in E; discriminate E]|].
    all: unfold survives.
    all: vm_compute link_target; cbv iota beta.
    all: first [left; vm_compute; reflexivity|split; [vm_compute; reflexivity|]; split; [vm_compute; discriminate|];
      split; [vm_compute; discriminate|vm_compute; reflexivity]].
  - intros n Hn Hc. cbn in Hn. cases Hn; try (vm_compute in Hc; discriminate Hc). apply comment_b_ok; vm_compute; reflexivity.
  - intros n Hn Ht'.
    assert (B : text_b rdoc n = true) by (clear Ht'; revert n Hn; apply nodes_in; vm_compute; reflexivity).
    destruct (text_b_ok rdoc n B Ht') as (B1 & B2 & B3). split; [exact B1|]. split; [exact B2|]. left. exact B3.
  - apply (apart_b_ok rdoc F R S). vm_compute. reflexivity.
Qed.

Lemma rdoc_settled F : shows (lk rdoc) F -> settled rdoc F rdoc_tree.
Proof.
  intros S.
  assert (Hin : forall n, n < 14 -> in_text_b rdoc n = true -> in_text rdoc F n).
  { intros n Hn. apply (in_text_b_ok rdoc F n rdoc_tame S). exact Hn. }
  assert (Hp : forall n p, parent (lk rdoc) n = Some p -> parent_of F n = Some p) by (intros n p; now rewrite (sh_parent _ _ S)).
  assert (E : flat_map (groups rdoc Default) (t_kids rdoc_tree) =
    [(Default, T 6 [T 7 []; T 8 [T 9 []]]); (Default, T 10 [T 11 []]); (Preserve, T 12 [T 13 []])]) by (vm_compute; reflexivity).
  unfold settled. rewrite E. split.
  - intros m g [Hg|[Hg|[Hg|[]]]]; injection Hg as <- <-.
    + right. change (texts rdoc (T 6 [T 7 []; T 8 [T 9 []]])) with [7; 9]. split.
      * intros n [<-|[<-|[]]]; apply Hin; try (vm_compute; reflexivity); apply Nat.ltb_lt; reflexivity.
      * left. split; [|vm_compute; reflexivity]. intros n [<-|[<-|[]]]; unfold tmode.
        -- rewrite (Hp 7 6) by (vm_compute; reflexivity). split; [vm_compute; reflexivity|]. exists 104%N. vm_compute. tauto.
        -- rewrite (Hp 9 8) by (vm_compute; reflexivity). split; [vm_compute; reflexivity|]. exists 121%N. vm_compute. tauto.
    + left. exists 11. split; vm_compute; reflexivity.
    + left. exists 13. split; [vm_compute; reflexivity|]. split; [vm_compute; reflexivity|]. apply Hin; [|vm_compute; reflexivity].
      apply Nat.ltb_lt. reflexivity.
  - intros n Hn Ht Hno. apply Hin; [|].
    + apply Nat.ltb_lt. revert n Hn Ht Hno. intros n Hn _ _. revert n Hn. apply nodes_in. vm_compute. reflexivity.
    + exfalso. cbn in Hn. cases Hn; try (vm_compute in Ht; discriminate Ht).
      * apply (Hno Default (T 6 [T 7 []; T 8 [T 9 []]])); [cbn; auto|]. vm_compute. tauto.
      * apply (Hno Default (T 6 [T 7 []; T 8 [T 9 []]])); [cbn; auto|]. vm_compute. tauto.
      * apply (Hno Default (T 10 [T 11 []])); [cbn; auto|]. vm_compute. tauto.
      * apply (Hno Preserve (T 12 [T 13 []])); [cbn; auto|]. vm_compute. tauto.
Qed.

(* <svg><text>a|b</text></svg> with two text nodes *)
Definition adjacent : dom := get (run all_check
  [ OCreateElement (QId E_Svg); OAppend 0 1; OCreateElement (QId E_Text); OAppend 1 2;
    OCreateNode NText (lit "a"); OAppend 2 3; OCreateNode NText (lit "b"); OAppend 2 4 ]).
Lemma adjacent_tame : reachable_tame adjacent.
Proof. apply sample_tame. vm_compute. reflexivity. Qed.
Definition adjacent_items : list xitem :=
  [XElement false (lit "svg") [xmlns] [XElement false (lit "text") [] [XText true (lit "a"); XText true (lit "b")] true] false].
Definition adjacent_top : list xml := [el "svg" [] [el "text" [] [tx "ab"]]].
Lemma adjacent_reads : reads_file adjacent_items adjacent_top.
Proof.
  exists adjacent_top. split; [|reflexivity]. unfold adjacent_items, adjacent_top.
  change [el "svg" [] [el "text" [] [tx "ab"]]] with ([] ++ el "svg" [] [el "text" [] [tx "ab"]] :: []).
  apply rd_cons; [constructor| |constructor; constructor].
  change (el "svg" [] [el "text" [] [tx "ab"]]) with (XmlElement (Some ns_svg) (lit "svg") [] (merged ([] ++ el "text" [] [tx "ab"] :: []))).
  apply rd_element.
  - repeat constructor. intros [].
  - set (e := fold_left declare [xmlns] no_env). change (Some ns_svg) with (e_default e). constructor. reflexivity.
  - constructor.
  - apply rd_cons; [constructor| |constructor; constructor].
    change (el "text" [] [tx "ab"]) with
      (XmlElement (Some ns_svg) (lit "text") [] (merged ([] ++ tx "a" :: ([] ++ tx "b" :: [])))).
    apply rd_element.
    + constructor.
    + set (e := fold_left declare [] (fold_left declare [xmlns] no_env)). change (Some ns_svg) with (e_default e). constructor. reflexivity.
    + constructor.
    + apply rd_cons; [constructor|constructor; reflexivity|]. apply rd_cons; [constructor|constructor; reflexivity|]. constructor. constructor.
Qed.

(* <svg font-family="Q & A"/> *)
Definition ampersand : dom := get (run all_check
  [ OCreateElement (QId E_Svg); OAppend 0 1; OSetAttribute 1 (mkAttr (QId A_FontFamily) (VString (lit "Q & A"))) ]).
Lemma ampersand_tame : reachable_tame ampersand.
Proof. apply sample_tame. vm_compute. reflexivity. Qed.
Definition ampersand_items : list xitem :=
  [XElement false (lit "svg") [xmlns; (lit "font-family", lit "Q & A")] [] false].
Lemma ampersand_unreadable top : ~ reads_file ampersand_items top.
Proof.
  intros (ys & H & _). inversion H as [|e b g x y l ys' Hg Hr Hl]; subst. inversion Hr as [e b1 name attrs kids b2 ns local xattrs zs Hd Hn Ha Hk| |]; subst.
  match type of Ha with Forall2 _ ?l _ =>
    let l' := eval vm_compute in l in change l with l' in Ha end.
  inversion Ha as [|? ? ? ? Hx]; subst. inversion Hx as [name raw v Hs (_ & Hv)|name raw p l ns' v Hs _ _]; subst; [vm_compute in Hv|vm_compute in Hs]; discriminate.
Qed.
