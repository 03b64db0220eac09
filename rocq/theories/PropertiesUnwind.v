(* C72-C74: the document after a panic that was caught. *)
From Coq Require Import List Bool PeanoNat NArith String.
From Verif Require Import Base Ids Links Tree ForestSpec TreeSpec TreeApi Data Attrs Slab NodeApi AttrSpec Doc History DocSpec
  ApiProofs Replay Guards GuardSpec GuardProofs Unwind UnwindSpec UnwindTree UnwindAttrs Samples.
Import ListNotations.
Open Scope string_scope.

(* C72: a move that panics leaves the tree as it was.  False: 5 has the next sibling 7, and 5.insert_after(7)
   panics when 7 has no parent any more but is still the next sibling of 5. *)
Theorem C72_refuted : exists D a n L' q, reachable_orderly D /\ reachable_tame D /\
  u_insert_after [] a n (lk D) = (L', Panics q) /\ parent (lk D) n <> None /\ parent L' n = None /\ ~ consistent L'.
Proof.
  assert (Hs : forall A (o : links * fate A) q, snd o = Panics q -> o = (fst o, Panics q)) by (now intros A [D f] q <-).
  assert (E : snd (u_insert_after [] 5 7 (lk doc)) = Panics PBorrow) by (vm_compute; reflexivity).
  assert (N : parent (lk doc) 7 <> None) by (vm_compute; discriminate).
  assert (N' : parent (fst (u_insert_after [] 5 7 (lk doc))) 7 = None) by (vm_compute; reflexivity).
  apply Hs in E. pose proof (insert_after_end [] 5 7 (lk doc) (reachable_shows doc doc_reachable)) as (_ & B).
  specialize (B _ _ E). destruct B as (_ & B).
  exists doc, 5, 7, (fst (u_insert_after [] 5 7 (lk doc))), PBorrow. split; [exact doc_orderly|]. split; [exact doc_tame|].
  split; [exact E|]. split; [exact N|]. split; [exact N'|]. apply B. clear. intros [X|[[]|[]]]. discriminate X.
Qed.
Print Assumptions C72_refuted.

(* Proved: the tree is as it was if the two nodes are the same or one of them has a guard; otherwise
   navigation does not fit together any more. *)
Theorem C72_append_partial g p n D : reachable D ->
  move_end (p = n \/ held g p \/ held g n) (lk D) (append (all_guards g) p n (lk D)) (u_append (all_guards g) p n (lk D)).
Proof. exact (append_end_api g p n D). Qed.
Print Assumptions C72_append_partial.
Theorem C72_prepend_partial g p n D : reachable D ->
  move_end (p = n \/ held g p \/ held g n) (lk D) (prepend (all_guards g) p n (lk D)) (u_prepend (all_guards g) p n (lk D)).
Proof. exact (prepend_end_api g p n D). Qed.
Print Assumptions C72_prepend_partial.
Theorem C72_insert_after_partial g a n D : reachable D ->
  move_end (a = n \/ held g a \/ held g n) (lk D) (insert_after (all_guards g) a n (lk D))
    (u_insert_after (all_guards g) a n (lk D)).
Proof. exact (insert_after_end_api g a n D). Qed.
Print Assumptions C72_insert_after_partial.
Theorem C72_insert_before_partial g a n D : reachable D ->
  move_end (a = n \/ held g a \/ held g n) (lk D) (insert_before (all_guards g) a n (lk D))
    (u_insert_before (all_guards g) a n (lk D)).
Proof. exact (insert_before_end_api g a n D). Qed.
Print Assumptions C72_insert_before_partial.
Theorem C72_detach_partial g n D : reachable D ->
  move_end (held g n) (lk D) (detach (all_guards g) n (lk D)) (u_detach (all_guards g) n (lk D)).
Proof. exact (detach_end_api g n D). Qed.
Print Assumptions C72_detach_partial.

(* Panics of both kinds: 1 has the children 2, 5, 7, 8.  Then some of the broken links: 7 is the last child of
   1 and has no previous sibling. *)
Example C72_outcomes : reachable doc /\
  snd (u_append [] 2 2 (lk doc)) = Panics PAssert /\
  snd (u_append [] 1 8 (lk doc)) = Panics PBorrow /\
  snd (u_prepend [] 1 2 (lk doc)) = Panics PBorrow /\
  snd (u_insert_before [] 5 2 (lk doc)) = Panics PBorrow /\
  snd (u_detach [7] 7 (lk doc)) = Panics PBorrow /\
  snd (u_detach [8] 7 (lk doc)) = Panics PBorrow /\
  (let L := fst (u_detach [5] 7 (lk doc)) in
   snd (u_detach [5] 7 (lk doc)) = Panics PBorrow /\
   next_sibling L 5 = Some 7 /\ previous_sibling L 8 = Some 5 /\ parent L 7 = None /\ next_sibling L 7 = None) /\
  snd (u_append [] 2 8 (lk doc)) = Gives tt.
Proof. split; [exact doc_reachable|]. vm_compute. repeat split. Qed.

(* C73: without guards, an attribute call that panics changes nothing, and a copy_node that panics leaves a
   document some other calls would have led to: with a new element that has the attributes in front of the
   first link to a node without id. *)
Theorem C73_remove_attribute self name D : reachable D ->
  uncaught_ (u_remove_attribute no_guards self name D) = remove_attribute self name D /\
  forall D' q, u_remove_attribute no_guards self name D = (D', Panics q) -> D' = D.
Proof. exact (remove_unchanged self name D). Qed.
Print Assumptions C73_remove_attribute.
Theorem C73_set_attribute_checked self a D : reachable D ->
  uncaught (u_set_attribute_checked no_guards self a D) = set_attribute_checked self a D /\
  forall D' q, u_set_attribute_checked no_guards self a D = (D', Panics q) -> D' = D.
Proof. exact (checked_unchanged self a D). Qed.
Print Assumptions C73_set_attribute_checked.
Theorem C73_set_attribute self a D : reachable D ->
  uncaught_ (u_set_attribute no_guards self a D) = set_attribute self a D /\
  forall D' q, u_set_attribute no_guards self a D = (D', Panics q) -> D' = D.
Proof. exact (set_unchanged self a D). Qed.
Print Assumptions C73_set_attribute.
Theorem C73_set_attribute_if_none self a D : reachable D ->
  uncaught_ (u_set_attribute_if_none no_guards self a D) = set_attribute_if_none self a D /\
  forall D' q, u_set_attribute_if_none no_guards self a D = (D', Panics q) -> D' = D.
Proof. exact (if_none_unchanged self a D). Qed.
Print Assumptions C73_set_attribute_if_none.
Theorem C73_copy_node n D : reachable D -> exists_node D n ->
  uncaught (u_copy_node no_guards n D) = (x <- copy_node n D ;; Ok (snd x, fst x)) /\
  forall D' q, u_copy_node no_guards n D = (D', Panics q) ->
    reachable D' /\
    (D' = D \/ exists pre a post, attributes D n = (pre ++ a :: post)%list /\
       (exists t, link_target (a_value a) = Some t /\ id_of D t = []) /\ started_copy D n pre D').
Proof. exact (copy_started n D). Qed.
Print Assumptions C73_copy_node.

(* A link to 5, which has no id, is refused: set_attribute panics.  A copy of 3, whose attributes are opacity
   and fill, ends in the middle if 7, which fill links to, has lost its id. *)
Definition half_ops : list op :=
  (doc_ops ++ [OSetAttribute 3 (mkAttr (QId A_Fill) (VPaint 7 None)); OSetId 7 (lit "")])%list.
Definition half : dom := get (run all_check half_ops).
Definition half_reachable : reachable half := sample_reachable half_ops eq_refl.
Example C73_outcomes : reachable doc /\ reachable half /\
  snd (u_set_attribute no_guards 3 (mkAttr (QId A_Fill) (VPaint 5 None)) doc) = Panics PUnwrap /\
  snd (u_set_attribute_checked no_guards 6 (mkAttr (QId A_Fill) (VString (lit "a"))) doc) = Panics PDebugAssert /\
  snd (u_set_attribute_if_none no_guards 4 (mkAttr (QId A_Fill) (VPaint 4 None)) doc) = Panics PUnwrap /\
  snd (u_set_attribute no_guards 4 (mkAttr (QId A_Fill) (VPaint 8 None)) doc) = Gives tt /\
  exists_node half 3 /\ fresh half = 9 /\
  snd (u_copy_node no_guards 3 half) = Panics PUnwrap /\
  map a_name (attributes half 3) = [QId A_Opacity; QId A_Fill] /\
  map a_name (attributes (fst (u_copy_node no_guards 3 half)) 9) = [QId A_Opacity].
Proof.
  split; [exact doc_reachable|]. split; [exact half_reachable|]. do 4 (split; [vm_compute; reflexivity|]).
  split; [apply Nat.ltb_lt; vm_compute; reflexivity|]. repeat (split; [vm_compute; reflexivity|]). vm_compute. reflexivity.
Qed.

(* C74: under guards, an attribute call or a copy_node that panics leaves links and users in step.  False: 3 is
   read while its attribute fill, a link to 7, is to be removed; 7 loses its user, the attribute stays. *)
Theorem C74_refuted : exists D, reachable_orderly D /\ reachable_tame D /\
  (exists g n name D' q, lawful g /\ u_remove_attribute g n name D = (D', Panics q) /\ ~ mirrored D') /\
  (exists g n a D' q, lawful g /\ u_set_attribute g n a D = (D', Panics q) /\ ~ mirrored D') /\
  (exists g n D' q, lawful g /\ u_copy_node g n D = (D', Panics q) /\ ~ mirrored D').
Proof.
  exists doc. split; [exact doc_orderly|]. split; [exact doc_tame|].
  assert (Hs : forall A (o : dom * fate A) q, snd o = Panics q -> o = (fst o, Panics q)) by (now intros A [D f] q <-).
  assert (Hl : forall l, lawful (mkGuards l [])) by (intros l; split; [constructor|intros n []]).
  pose proof (reach_linv doc doc_reachable) as I.
  split; [|split].
  - assert (E : snd (u_remove_attribute (mkGuards [3] []) 3 (QId A_Fill) doc) = Panics PBorrow) by (vm_compute; reflexivity).
    apply Hs in E. eexists _, 3, (QId A_Fill), _, PBorrow. split; [apply (Hl [3])|]. split; [exact E|].
    apply (remove_end (mkGuards [3] []) 3 (QId A_Fill) doc I _ _ E).
    split; [left; now left|]. split; [intros []|]. exists 7. split.
    + exists (mkAttr (QId A_Fill) (VPaint 7 (Some FNone))). vm_compute. tauto.
    + intros [[X|[]]|[]]; discriminate X.
  - assert (E : snd (u_set_attribute (mkGuards [8] []) 4 (mkAttr (QId A_Fill) (VPaint 8 None)) doc) = Panics PBorrow)
      by (vm_compute; reflexivity).
    apply Hs in E. eexists _, 4, _, _, PBorrow. split; [apply (Hl [8])|]. split; [exact E|].
    apply (set_end (mkGuards [8] []) 4 (mkAttr (QId A_Fill) (VPaint 8 None)) doc I _ _ E).
    split; [vm_compute; reflexivity|]. split; [vm_compute; reflexivity|]. split; [intros t _ []|]. right.
    split; [intros [[X|[]]|[]]; discriminate X|]. split.
    + intros t (a & Ha & Hn & _). assert (X : attributes doc 4 = [mkAttr (QId A_Stroke) (VPaint 7 None)]) by (vm_compute; reflexivity).
      rewrite X in Ha. destruct Ha as [<-|[]]. discriminate Hn.
    + exists 8. split; [reflexivity|]. left. now left.
  - assert (E : snd (u_copy_node (mkGuards [7] []) 4 doc) = Panics PBorrow) by (vm_compute; reflexivity).
    apply Hs in E. eexists _, 4, _, PBorrow. split; [apply (Hl [7])|]. split; [exact E|].
    assert (Hf : fresh doc = 9) by (vm_compute; reflexivity).
    intros M. pose proof (M 9 7) as X. vm_compute in X. discriminate X.
Qed.
Print Assumptions C74_refuted.

(* Proved: they are out of step exactly as [torn_remove], [torn_set] and [torn_copy] say, and otherwise the
   document is as it was (copy_node: as in C73). *)
Theorem C74_remove_attribute_partial g self name D : reachable D ->
  uncaught_ (u_remove_attribute g self name D) = g_remove_attribute g self name D /\
  attr_end (torn_remove g D self name) D (u_remove_attribute g self name D).
Proof. exact (fun R => conj (unc_remove_attribute g self name D) (remove_end g self name D (reach_linv D R))). Qed.
Print Assumptions C74_remove_attribute_partial.
Theorem C74_set_attribute_checked_partial g self a D : reachable D ->
  uncaught (u_set_attribute_checked g self a D) = g_set_attribute_checked g self a D /\
  attr_end (torn_set g D self a) D (u_set_attribute_checked g self a D).
Proof. exact (fun R => conj (unc_checked g self a D) (checked_end g self a D (reach_linv D R))). Qed.
Print Assumptions C74_set_attribute_checked_partial.
Theorem C74_set_attribute_partial g self a D : reachable D ->
  uncaught_ (u_set_attribute g self a D) = g_set_attribute g self a D /\
  attr_end (torn_set g D self a) D (u_set_attribute g self a D).
Proof. exact (fun R => conj (unc_set_attribute g self a D) (set_end g self a D (reach_linv D R))). Qed.
Print Assumptions C74_set_attribute_partial.
Theorem C74_set_attribute_if_none_partial g self a D : reachable D ->
  uncaught_ (u_set_attribute_if_none g self a D) = g_set_attribute_if_none g self a D /\
  attr_end (has_attribute D self (a_name a) = false /\ torn_set g D self a) D (u_set_attribute_if_none g self a D).
Proof. exact (fun R => conj (unc_if_none g self a D) (if_none_end g self a D (reach_linv D R))). Qed.
Print Assumptions C74_set_attribute_if_none_partial.
Theorem C74_copy_node_partial g n D : reachable D -> exists_node D n -> (forall x, held g x -> exists_node D x) ->
  uncaught (u_copy_node g n D) = (x <- g_copy_node g n D ;; Ok (snd x, fst x)) /\
  copy_end g D n (u_copy_node g n D).
Proof. exact (fun R Hn Hg => conj (unc_copy_node g n D) (copy_node_end g n D R Hn Hg)). Qed.
Print Assumptions C74_copy_node_partial.

(* Panics that leave the document as it was: a RefMut of the node; a guard of the old target; and, on copying 3,
   of the node itself. *)
Example C74_outcomes : reachable doc /\
  snd (u_remove_attribute (mkGuards [] [3]) 3 (QId A_Fill) doc) = Panics PBorrow /\
  ~ torn_remove (mkGuards [] [3]) doc 3 (QId A_Fill) /\
  snd (u_remove_attribute (mkGuards [7] []) 3 (QId A_Fill) doc) = Panics PBorrow /\
  ~ torn_remove (mkGuards [7] []) doc 3 (QId A_Fill) /\
  snd (u_set_attribute (mkGuards [3] []) 3 (mkAttr (QId A_Stroke) (VPaint 8 None)) doc) = Panics PBorrow /\
  ~ torn_set (mkGuards [3] []) doc 3 (mkAttr (QId A_Stroke) (VPaint 8 None)) /\
  snd (u_copy_node (mkGuards [] [3]) 3 doc) = Panics PBorrow /\
  snd (u_copy_node (mkGuards [3] []) 3 doc) = Gives 9.
Proof.
  assert (A3 : attributes doc 3 = [mkAttr (QId A_Fill) (VPaint 7 (Some FNone)); mkAttr (QId A_Opacity) (VString (lit "0.5"))])
    by (vm_compute; reflexivity).
  split; [exact doc_reachable|]. split; [vm_compute; reflexivity|].
  split; [intros (_ & X & _); apply X; now left|]. split; [vm_compute; reflexivity|].
  split; [intros ([[X|[]]|[]] & _); discriminate X|]. split; [vm_compute; reflexivity|].
  split.
  { intros (_ & _ & _ & [(_ & _ & t & (a & Ha & Hn & _) & _)|(X & _)]); [|apply X; left; now left].
    rewrite A3 in Ha. destruct Ha as [<-|[<-|[]]]; discriminate Hn. }
  split; vm_compute; reflexivity.
Qed.
