(* C38-C44: white space processing of text. *)
From Coq Require Import String List Bool PeanoNat NArith.
From Verif Require Import Base Ids Links Tree ForestSpec TreeSpec Data Attrs Slab NodeApi Doc History DocSpec
  Text TextSpec TextFacts TextApi Samples TextSamples.
Import ListNotations.
Open Scope nat_scope.
Open Scope list_scope.

(* C38: one string. *)
Theorem C38_trim s :
  trim s Preserve = spaced s /\ trim s Default = collapse (spaced s) /\
  no_double (trim s Default) /\ (forall m, trim (trim s m) m = trim s m).
Proof.
  split; [exact (trim_preserve s)|]. split; [exact (trim_default s)|]. split; [|exact (trim_idem s)].
  rewrite (trim_default s). apply ok2_no_double, collapse_ok2.
Qed.
Print Assumptions C38_trim.
Example C38_case : trim broken Default = lit " a b " /\ trim broken Preserve = lit "  a b ".
Proof. split; reflexivity. Qed.

(* C39: text preprocessing always succeeds, only drops white characters or turns them into spaces, and
   takes out the texts that became empty. *)
Theorem C39_white_only D F : reachable_tame D -> shows (lk D) F -> textual D F ->
  exists D' F', prepare_text D = Ok D' /\ shows (lk D') F' /\
  (forall n, whitened (text_of D n) (text_of D' n)) /\
  (forall n, is_text D n = false -> text_of D' n = text_of D n) /\
  (forall t, tree_at F t -> t_node t = droot D ->
     tree_at F' (drained (fun n => is_text D n && is_empty (text_of D' n)) t)).
Proof. exact (text_white_only D F). Qed.
Print Assumptions C39_white_only.
Example C39_case : (reachable_tame joined /\ exists F, shows (lk joined) F /\ textual joined F) /\
  exists D', prepare_text joined = Ok D' /\
    text_of D' 3 = lit "a b " /\ text_of D' 5 = lit "c" /\ text_of D' 6 = lit " d".
Proof.
  split; [split; [exact joined_tame|apply (sample_forest joined joined_tame); vm_compute; reflexivity]|].
  apply ok_case. vm_compute. tauto.
Qed.

(* C40: attributes, and everything else than text. *)
Theorem C40_attributes D F : reachable_tame D -> shows (lk D) F -> textual D F -> forall D', prepare_text D = Ok D' ->
  (forall n, attributes D' n = attributes D n) /\
  (forall n, node_type D' n = node_type D n /\ tag_name D' n = tag_name D n /\ id_of D' n = id_of D n).
Proof. exact (text_attributes D F). Qed.
Print Assumptions C40_attributes.
Theorem C40_api D F : reachable_tame D -> shows (lk D) F -> textual D F -> forall D', prepare_text D = Ok D' ->
  reachable_tame D' /\ (reachable_leafy D -> reachable_leafy D').
Proof. exact (text_reachable D F). Qed.
Print Assumptions C40_api.
Example C40_case : (reachable_tame mixed /\ reachable_leafy joined /\ exists F, shows (lk mixed) F /\ textual mixed F) /\
  exists D', prepare_text mixed = Ok D' /\ attributes D' 4 = [space "preserve"] /\ attributes D' 2 = [].
Proof.
  split; [split; [exact mixed_tame|split; [exact joined_leafy|apply (sample_forest mixed mixed_tame); vm_compute; reflexivity]]|].
  apply ok_case. vm_compute. tauto.
Qed.

(* C41: a text element with a single text. *)
Theorem C41_single D F : reachable_tame D -> shows (lk D) F -> textual D F -> forall D', prepare_text D = Ok D' ->
  forall e n t m, text_root D F e n -> tree_at F t -> t_node t = e -> texts D t = [n] -> space_mode D F e m ->
  match m with
  | Default => text_of D' n = normal (text_of D n) /\
      no_lead (text_of D' n) /\ no_trail (text_of D' n) /\ no_double (text_of D' n)
  | Preserve => text_of D' n = spaced (text_of D n) /\ length (text_of D' n) = length (text_of D n)
  end.
Proof. exact (text_single D F). Qed.
Print Assumptions C41_single.
Lemma one_case m D : D = one_default /\ m = Default \/ D = one_preserve /\ m = Preserve ->
  reachable_tame D /\ exists F, shows (lk D) F /\ textual D F /\ text_root D F 2 3 /\ tree_at F (T 2 [T 3 []]) /\
    texts D (T 2 [T 3 []]) = [3] /\ space_mode D F 2 m.
Proof.
  intros H. assert (HT : reachable_tame D).
  { destruct H as [(-> & _)|(-> & _)]; [exact one_default_tame|exact one_preserve_tame]. }
  split; [exact HT|]. destruct (sample_forest D HT) as (F & S & HX).
  { destruct H as [(-> & _)|(-> & _)]; vm_compute; reflexivity. }
  exists F. split; [exact S|]. split; [exact HX|]. split; [|split; [|split]].
  - apply text_root_2; try exact S; try (destruct H as [(-> & _)|(-> & _)]; vm_compute; reflexivity).
    + apply (anc_step D F 2 3 2 S); [|constructor]. destruct H as [(-> & _)|(-> & _)]; vm_compute; reflexivity.
    + discriminate.
  - apply (tree_b_ok D F); [exact S|]. destruct H as [(-> & _)|(-> & _)]; vm_compute; reflexivity.
  - destruct H as [(-> & _)|(-> & _)]; vm_compute; reflexivity.
  - apply (mode_up D F 2 1 m S); try (destruct H as [(-> & _)|(-> & _)]; vm_compute; reflexivity).
    apply mode_own. destruct H as [(-> & ->)|(-> & ->)]; vm_compute; reflexivity.
Qed.
Example C41_case :
  (reachable_tame one_default /\ exists F, shows (lk one_default) F /\ textual one_default F /\ text_root one_default F 2 3 /\
    tree_at F (T 2 [T 3 []]) /\ texts one_default (T 2 [T 3 []]) = [3] /\ space_mode one_default F 2 Default) /\
  (reachable_tame one_preserve /\ exists F, shows (lk one_preserve) F /\ textual one_preserve F /\ text_root one_preserve F 2 3 /\
    tree_at F (T 2 [T 3 []]) /\ texts one_preserve (T 2 [T 3 []]) = [3] /\ space_mode one_preserve F 2 Preserve) /\
  (exists D', prepare_text one_default = Ok D' /\ text_of D' 3 = lit "a b") /\
  (exists D', prepare_text one_preserve = Ok D' /\ text_of D' 3 = lit "  a b ").
Proof.
  split; [apply one_case; now left|]. split; [apply one_case; now right|].
  split; apply ok_case; vm_compute; reflexivity.
Qed.

(* C42 as stated is false: with two texts, a space at the front saves the space at the end. *)
Theorem C42_refuted : exists D F t D', reachable_tame D /\ shows (lk D) F /\ textual D F /\
  tree_at F t /\ text_root D F (t_node t) 3 /\ texts D t = [3; 5] /\
  (forall n, In n (texts D t) -> space_mode D F n Default) /\ prepare_text D = Ok D' /\
  all_text (text_of D') (texts D t) = lit "ab ".
Proof.
  destruct (sample_forest both both_tame) as (F & S & HX). { vm_compute. reflexivity. }
  assert (E : exists D', prepare_text both = Ok D' /\ all_text (text_of D') [3; 5] = lit "ab ").
  { apply ok_case. vm_compute. reflexivity. }
  destruct E as (D' & E & Et). exists both, F, (T 2 [T 3 []; T 4 [T 5 []]]), D'.
  split; [exact both_tame|]. split; [exact S|]. split; [exact HX|].
  split; [apply (tree_b_ok both F _ S); vm_compute; reflexivity|]. split.
  { apply text_root_2; try exact S; try (vm_compute; reflexivity); [|discriminate].
    apply (anc_step both F 2 3 2 S); [vm_compute; reflexivity|constructor]. }
  assert (Hl : texts both (T 2 [T 3 []; T 4 [T 5 []]]) = [3; 5]) by (vm_compute; reflexivity).
  assert (M2 : space_mode both F 2 Default).
  { apply (mode_up both F 2 1 _ S); [vm_compute; reflexivity..|]. apply (mode_up both F 1 0 _ S); [vm_compute; reflexivity..|].
    apply (mode_top both F 0 S); vm_compute; reflexivity. }
  split; [exact Hl|]. split; [|split; [exact E|now rewrite Hl]].
  rewrite Hl. intros n [<-|[<-|[]]].
  - apply (mode_up both F 3 2 _ S); [vm_compute; reflexivity..|exact M2].
  - apply (mode_up both F 5 4 _ S); [vm_compute; reflexivity..|]. apply (mode_up both F 4 2 _ S); [vm_compute; reflexivity..|exact M2].
Qed.
Print Assumptions C42_refuted.
(* C42 when every text has a character that is not white, except for two texts with white space at both
   outer ends: all texts together are processed like one string. *)
Theorem C42_joined_partial D F : reachable_tame D -> shows (lk D) F -> textual D F -> forall D', prepare_text D = Ok D' ->
  forall e t, (exists n, is_text D n = true /\ text_root D F e n) -> tree_at F t -> t_node t = e ->
  (forall n, In n (texts D t) -> space_mode D F n Default /\ direct D F e n /\ inked (text_of D n)) ->
  (forall a b, texts D t = [a; b] -> no_lead (spaced (text_of D a)) \/ no_trail (spaced (text_of D b))) ->
  let result := all_text (text_of D') (texts D t) in
  result = normal (all_text (text_of D) (texts D t)) /\ no_lead result /\ no_trail result /\ no_double result.
Proof.
  intros HR HS HT D' E e t H1 H2 H3 H4 H5 result. unfold result. rewrite (text_joined D F HR HS HT D' E e t H1 H2 H3 H4 H5).
  pose proof (normal_clean (all_text (text_of D) (texts D t))). tauto.
Qed.
Print Assumptions C42_joined_partial.
Definition joined_tree : tree := T 2 [T 3 []; T 4 [T 5 []]; T 6 []].
Example C42_case : reachable_tame joined /\
  (exists F, shows (lk joined) F /\ textual joined F /\ tree_at F joined_tree /\ text_root joined F 2 3 /\
     texts joined joined_tree = [3; 5; 6] /\
     forall n, In n [3; 5; 6] -> space_mode joined F n Default /\ direct joined F 2 n /\ inked (text_of joined n)) /\
  exists D', prepare_text joined = Ok D' /\ all_text (text_of D') [3; 5; 6] = lit "a b c d".
Proof.
  split; [exact joined_tame|]. split; [|apply ok_case; vm_compute; reflexivity].
  destruct (sample_forest joined joined_tame) as (F & S & HX). { vm_compute. reflexivity. }
  exists F. split; [exact S|]. split; [exact HX|]. split; [apply (tree_b_ok joined F _ S); vm_compute; reflexivity|]. split.
  { apply text_root_2; try exact S; try (vm_compute; reflexivity); [|discriminate].
    apply (anc_step joined F 2 3 2 S); [vm_compute; reflexivity|constructor]. }
  split; [vm_compute; reflexivity|].
  assert (M2 : space_mode joined F 2 Default).
  { apply (mode_up joined F 2 1 _ S); [vm_compute; reflexivity..|]. apply (mode_up joined F 1 0 _ S); [vm_compute; reflexivity..|].
    apply (mode_top joined F 0 S); vm_compute; reflexivity. }
  assert (X : forall n p, parent (lk joined) n = Some p -> p = 2 \/ own_space joined p <> None -> direct joined F 2 n).
  { intros n p Hp Hc q Hq Ho a H1 H2 H3. rewrite <- (sh_parent _ _ S), Hp in Hq. injection Hq as <-.
    destruct Hc as [->|Hc]; [|easy]. exfalso. apply H3.
    apply (anc_up joined F a 2 1 S) in H2; [|vm_compute; reflexivity]. destruct H2 as [H2|H2]; [exact H2|].
    apply (anc_up joined F a 1 0 S) in H2; [|vm_compute; reflexivity]. destruct H2 as [->|H2].
    - apply (anc_up joined F 2 1 0 S) in H1; [|vm_compute; reflexivity]. destruct H1 as [|H1]; [discriminate|].
      apply (anc_top joined F 2 0 S) in H1; [discriminate|vm_compute; reflexivity].
    - apply (anc_top joined F a 0 S) in H2; [|vm_compute; reflexivity]. subst a.
      apply (anc_top joined F 2 0 S) in H1; [discriminate|vm_compute; reflexivity]. }
  intros n [<-|[<-|[<-|[]]]].
  - split; [apply (mode_up joined F 3 2 _ S); [vm_compute; reflexivity..|exact M2]|].
    split; [apply (X 3 2); [vm_compute; reflexivity|now left]|]. exists 97%N. split; [vm_compute; tauto|reflexivity].
  - split; [apply (mode_up joined F 5 4 _ S); [vm_compute; reflexivity..|apply mode_own; vm_compute; reflexivity]|].
    split; [apply (X 5 4); [vm_compute; reflexivity|right; vm_compute; discriminate]|]. exists 99%N. split; [vm_compute; tauto|reflexivity].
  - split; [apply (mode_up joined F 6 2 _ S); [vm_compute; reflexivity..|exact M2]|].
    split; [apply (X 6 2); [vm_compute; reflexivity|now left]|]. exists 100%N. split; [vm_compute; tauto|reflexivity].
Qed.

(* C42 for two and more texts some of which are blank, as between the lines of an indented file: each
   blank text follows a visible one.  Exactly two things go wrong: a blank first text directly followed,
   in the text element itself, by a text with white space in front, and two texts with white space at
   both outer ends (the exception in it: "a " and a blank text in a deeper element). *)
Theorem C42_exact_partial D F : reachable_tame D -> shows (lk D) F -> textual D F -> forall D', prepare_text D = Ok D' ->
  forall e t a b l, (exists n, is_text D n = true /\ text_root D F e n) -> tree_at F t -> t_node t = e ->
  texts D t = a :: b :: l ->
  (forall n, In n (texts D t) -> space_mode D F n Default /\ direct D F e n /\ text_of D n <> []) ->
  (forall l1 x y l2, texts D t = l1 ++ x :: y :: l2 -> inked (text_of D y) \/ visible (text_of D x)) ->
  (all_text (text_of D') (texts D t) = normal (all_text (text_of D) (texts D t)) <->
   ~ (~ inked (text_of D a) /\ lead_white (text_of D b) /\ parent_of F b = Some e) /\
   ~ (l = [] /\ lead_white (text_of D a) /\ trail_white (text_of D b) /\
      ~ (inked (text_of D a) /\ trail_white (text_of D a) /\ ~ inked (text_of D b) /\ parent_of F b <> Some e))).
Proof. exact (fun HR HS HT D' E => text_exact D F HR HS HT D' E). Qed.
Print Assumptions C42_exact_partial.
Definition pretty_tree : tree := T 2 [T 3 []; T 4 [T 5 []]; T 6 []; T 7 [T 8 []]; T 9 []].
Definition kept_tree : tree := T 2 [T 3 []; T 4 []; T 5 []].
Lemma pairs_of {A} (P : A -> A -> Prop) : forall L, (fix go l := match l with x :: (y :: _) as t => P x y /\ go t | _ => True end) L ->
  forall l1 x y l2, L = l1 ++ x :: y :: l2 -> P x y.
Proof.
  induction L as [|u L IH]; intros H l1 x y l2 E; [now destruct l1|]. destruct l1 as [|v l1]; cbn [app] in E.
  - injection E as -> ->. apply H.
  - injection E as -> ->. apply (IH) with (l1 := l1) (l2 := l2); [|reflexivity]. destruct l1; apply H.
Qed.
Example C42_exact_case :
  (reachable_tame pretty /\ exists F, shows (lk pretty) F /\ textual pretty F /\ tree_at F pretty_tree /\ text_root pretty F 2 3 /\
     texts pretty pretty_tree = [3; 5; 6; 8; 9] /\
     (forall n, In n [3; 5; 6; 8; 9] -> space_mode pretty F n Default /\ direct pretty F 2 n /\ text_of pretty n <> []) /\
     (forall l1 x y l2, [3; 5; 6; 8; 9] = l1 ++ x :: y :: l2 -> inked (text_of pretty y) \/ visible (text_of pretty x))) /\
  (exists D', prepare_text pretty = Ok D' /\ all_text (text_of D') [3; 5; 6; 8; 9] = lit "a b") /\
  (reachable_tame kept_lead /\ exists F, shows (lk kept_lead) F /\ textual kept_lead F /\ tree_at F kept_tree /\ text_root kept_lead F 2 3 /\
     texts kept_lead kept_tree = [3; 5] /\
     (forall n, In n [3; 5] -> space_mode kept_lead F n Default /\ direct kept_lead F 2 n /\ text_of kept_lead n <> []) /\
     (forall l1 x y l2, [3; 5] = l1 ++ x :: y :: l2 -> inked (text_of kept_lead y) \/ visible (text_of kept_lead x))) /\
  (exists D', prepare_text kept_lead = Ok D' /\ all_text (text_of D') [3; 5] = lit " b").
Proof.
  assert (Dir : forall D F n, shows (lk D) F -> (forall q, own_space D q = None) -> direct D F 2 n) by (intros D F n _ H p _ _ a _ _ _; apply H).
  assert (Own : forall D : dom, (forall q, attributes D q = []) -> forall q, own_space D q = None) by (intros D H q; unfold own_space; now rewrite H).
  split; [|split; [apply ok_case; vm_compute; reflexivity|split; [|apply ok_case; vm_compute; reflexivity]]].
  - split; [exact pretty_tame|]. destruct (sample_forest pretty pretty_tame) as (F & S & HX). { vm_compute. reflexivity. }
    assert (O : forall q, own_space pretty q = None). { apply Own. intros q. do 10 (destruct q as [|q]; [vm_compute; reflexivity|]). vm_compute. reflexivity. }
    exists F. split; [exact S|]. split; [exact HX|]. split; [apply (tree_b_ok pretty F _ S); vm_compute; reflexivity|]. split.
    { apply text_root_2; try exact S; try (vm_compute; reflexivity); [|discriminate].
      apply (anc_step pretty F 2 3 2 S); [vm_compute; reflexivity|constructor]. }
    split; [vm_compute; reflexivity|].
    assert (M2 : space_mode pretty F 2 Default).
    { apply (mode_up pretty F 2 1 _ S); [vm_compute; reflexivity..|]. apply (mode_up pretty F 1 0 _ S); [vm_compute; reflexivity..|].
      apply (mode_top pretty F 0 S); vm_compute; reflexivity. }
    split.
    + assert (M4 : space_mode pretty F 4 Default) by (apply (mode_up pretty F 4 2 _ S); [vm_compute; reflexivity..|exact M2]).
      assert (M7 : space_mode pretty F 7 Default) by (apply (mode_up pretty F 7 2 _ S); [vm_compute; reflexivity..|exact M2]).
      intros n [<-|[<-|[<-|[<-|[<-|[]]]]]]; (split; [|split; [exact (Dir _ F _ S O)|vm_compute; discriminate]]).
      * apply (mode_up pretty F 3 2 _ S); [vm_compute; reflexivity..|exact M2].
      * apply (mode_up pretty F 5 4 _ S); [vm_compute; reflexivity..|exact M4].
      * apply (mode_up pretty F 6 2 _ S); [vm_compute; reflexivity..|exact M2].
      * apply (mode_up pretty F 8 7 _ S); [vm_compute; reflexivity..|exact M7].
      * apply (mode_up pretty F 9 2 _ S); [vm_compute; reflexivity..|exact M2].
    + apply (pairs_of (fun x y => inked (text_of pretty y) \/ visible (text_of pretty x))).
      repeat split.
      * left. exists 97%N. split; [vm_compute; tauto|reflexivity].
      * right. exists 97%N. split; [vm_compute; tauto|reflexivity].
      * left. exists 98%N. split; [vm_compute; tauto|reflexivity].
      * right. exists 98%N. split; [vm_compute; tauto|reflexivity].
  - split; [exact kept_lead_tame|]. destruct (sample_forest kept_lead kept_lead_tame) as (F & S & HX). { vm_compute. reflexivity. }
    assert (O : forall q, own_space kept_lead q = None). { apply Own. intros q. do 6 (destruct q as [|q]; [vm_compute; reflexivity|]). vm_compute. reflexivity. }
    exists F. split; [exact S|]. split; [exact HX|]. split; [apply (tree_b_ok kept_lead F _ S); vm_compute; reflexivity|]. split.
    { apply text_root_2; try exact S; try (vm_compute; reflexivity); [|discriminate].
      apply (anc_step kept_lead F 2 3 2 S); [vm_compute; reflexivity|constructor]. }
    split; [vm_compute; reflexivity|].
    assert (M2 : space_mode kept_lead F 2 Default).
    { apply (mode_up kept_lead F 2 1 _ S); [vm_compute; reflexivity..|]. apply (mode_up kept_lead F 1 0 _ S); [vm_compute; reflexivity..|].
      apply (mode_top kept_lead F 0 S); vm_compute; reflexivity. }
    split.
    + intros n [<-|[<-|[]]]; (split; [|split; [exact (Dir _ F _ S O)|vm_compute; discriminate]]).
      * apply (mode_up kept_lead F 3 2 _ S); [vm_compute; reflexivity..|exact M2].
      * apply (mode_up kept_lead F 5 2 _ S); [vm_compute; reflexivity..|exact M2].
    + apply (pairs_of (fun x y => inked (text_of kept_lead y) \/ visible (text_of kept_lead x))).
      repeat split. left. exists 98%N. split; [vm_compute; tauto|reflexivity].
Qed.

(* C43 as stated is false: text in an element whose first child is not a text is skipped. *)
Theorem C43_refuted : exists D F D', reachable_tame D /\ shows (lk D) F /\ textual D F /\ prepare_text D = Ok D' /\
  is_text D' 5 = true /\ parent (lk D') 5 = Some 2 /\ In 10%N (text_of D' 5).
Proof.
  destruct (sample_forest late late_tame) as (F & S & HX). { vm_compute. reflexivity. }
  assert (E : exists D', prepare_text late = Ok D' /\ is_text D' 5 = true /\ parent (lk D') 5 = Some 2 /\ In 10%N (text_of D' 5)).
  { apply ok_case. vm_compute. tauto. }
  destruct E as (D' & E & H). exists late, F, D'.
  split; [exact late_tame|]. split; [exact S|]. split; [exact HX|]. split; [exact E|exact H].
Qed.
Print Assumptions C43_refuted.
(* C43 for exactly the texts that are processed: the texts below an element whose first child is a text.
   The others are not changed at all. *)
Theorem C43_no_breaks_partial D F : reachable_tame D -> shows (lk D) F -> textual D F -> forall D', prepare_text D = Ok D' ->
  forall n, is_text D n = true ->
  (exists e, text_root D F e n) /\ (forall c, In c (text_of D' n) -> c <> 9%N /\ c <> 10%N /\ c <> 13%N) \/
  (forall e, ~ text_root D F e n) /\ text_of D' n = text_of D n.
Proof. exact (text_no_breaks D F). Qed.
Print Assumptions C43_no_breaks_partial.
Example C43_case : (reachable_tame joined /\ exists F, shows (lk joined) F /\ textual joined F) /\ is_text joined 3 = true /\
  In 10%N (text_of joined 3) /\ exists D', prepare_text joined = Ok D' /\ text_of D' 3 = lit "a b ".
Proof.
  split; [split; [exact joined_tame|apply (sample_forest joined joined_tame); vm_compute; reflexivity]|].
  split; [vm_compute; reflexivity|]. split; [vm_compute; tauto|]. apply ok_case. vm_compute. reflexivity.
Qed.

(* C44 as stated is false: an element between the text element and the parent of a text is ignored. *)
Theorem C44_refuted : exists D F D', reachable_tame D /\ shows (lk D) F /\ textual D F /\ prepare_text D = Ok D' /\
  space_mode D F 6 Preserve /\ text_of D 6 = lit "b  c" /\ text_of D' 6 = lit "b c".
Proof.
  destruct (sample_forest nested nested_tame) as (F & S & HX). { vm_compute. reflexivity. }
  assert (E : exists D', prepare_text nested = Ok D' /\ text_of D' 6 = lit "b c").
  { apply ok_case. vm_compute. reflexivity. }
  destruct E as (D' & E & H). exists nested, F, D'.
  split; [exact nested_tame|]. split; [exact S|]. split; [exact HX|]. split; [exact E|]. split; [|split; [vm_compute; reflexivity|exact H]].
  apply (mode_up nested F 6 5 _ S); [vm_compute; reflexivity..|]. apply (mode_up nested F 5 4 _ S); [vm_compute; reflexivity..|].
  apply mode_own. vm_compute. reflexivity.
Qed.
Print Assumptions C44_refuted.
(* C44 for texts with no xml:space strictly between the text element and their parent. *)
Theorem C44_mode_partial D F : reachable_tame D -> shows (lk D) F -> textual D F -> forall D', prepare_text D = Ok D' ->
  forall e n m, is_text D n = true -> text_root D F e n -> direct D F e n -> space_mode D F n m ->
  shortened (clean m (text_of D n)) (text_of D' n).
Proof. exact (text_mode D F). Qed.
Print Assumptions C44_mode_partial.
(* A text in preserve mode keeps all its characters if the last text of the element is not blank ... *)
Theorem C44_preserve_partial D F : reachable_tame D -> shows (lk D) F -> textual D F -> forall D', prepare_text D = Ok D' ->
  forall e n t l z, is_text D n = true -> text_root D F e n -> direct D F e n -> space_mode D F n Preserve ->
  tree_at F t -> t_node t = e -> texts D t = l ++ [z] -> inked (text_of D z) -> text_of D' n = spaced (text_of D n).
Proof. exact (text_kept D F). Qed.
Print Assumptions C44_preserve_partial.
(* ... but not always. *)
Theorem C44_preserve_refuted : exists D F D', reachable_tame D /\ shows (lk D) F /\ textual D F /\ prepare_text D = Ok D' /\
  space_mode D F 5 Preserve /\ own_space D 4 = Some Preserve /\ parent (lk D) 5 = Some 4 /\
  text_of D 5 = lit "b " /\ text_of D' 5 = lit "b".
Proof.
  destruct (sample_forest cut_off cut_off_tame) as (F & S & HX). { vm_compute. reflexivity. }
  assert (E : exists D', prepare_text cut_off = Ok D' /\ text_of D' 5 = lit "b").
  { apply ok_case. vm_compute. reflexivity. }
  destruct E as (D' & E & H). exists cut_off, F, D'.
  split; [exact cut_off_tame|]. split; [exact S|]. split; [exact HX|]. split; [exact E|]. split.
  - apply (mode_up cut_off F 5 4 _ S); [vm_compute; reflexivity..|]. apply mode_own. vm_compute. reflexivity.
  - split; [vm_compute; reflexivity|]. split; [vm_compute; reflexivity|]. split; [vm_compute; reflexivity|exact H].
Qed.
Print Assumptions C44_preserve_refuted.
Example C44_case : reachable_tame mixed /\
  (exists F, shows (lk mixed) F /\ textual mixed F /\ is_text mixed 5 = true /\ text_root mixed F 2 5 /\
     direct mixed F 2 5 /\ space_mode mixed F 5 Preserve /\ tree_at F joined_tree /\ texts mixed joined_tree = [3; 5] ++ [6] /\
     inked (text_of mixed 6)) /\
  exists D', prepare_text mixed = Ok D' /\ text_of D' 5 = lit "  c ".
Proof.
  split; [exact mixed_tame|]. split; [|apply ok_case; vm_compute; reflexivity].
  destruct (sample_forest mixed mixed_tame) as (F & S & HX). { vm_compute. reflexivity. }
  exists F. split; [exact S|]. split; [exact HX|]. split; [vm_compute; reflexivity|]. split.
  { apply text_root_2; try exact S; try (vm_compute; reflexivity); [|discriminate].
    apply (anc_step mixed F 2 5 4 S); [vm_compute; reflexivity|]. apply (anc_step mixed F 2 4 2 S); [vm_compute; reflexivity|constructor]. }
  split.
  { intros q Hq Ho. rewrite <- (sh_parent _ _ S) in Hq. assert (E : parent (lk mixed) 5 = Some 4) by (vm_compute; reflexivity).
    rewrite E in Hq. injection Hq as <-.
    assert (E2 : own_space mixed 4 = Some Preserve) by (vm_compute; reflexivity). rewrite E2 in Ho. discriminate Ho. }
  split; [apply (mode_up mixed F 5 4 _ S); [vm_compute; reflexivity..|apply mode_own; vm_compute; reflexivity]|].
  split; [apply (tree_b_ok mixed F _ S); vm_compute; reflexivity|]. split; [vm_compute; reflexivity|].
  exists 100%N. split; [vm_compute; tauto|reflexivity].
Qed.
