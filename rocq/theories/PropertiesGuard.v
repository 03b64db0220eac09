(* C68-C69: calls while the user holds guards of nodes. *)
From Coq Require Import List Bool PeanoNat NArith String.
From Verif Require Import Base Ids Links Tree ForestSpec TreeSpec Data Attrs Slab NodeApi AttrSpec Doc History DocSpec
  Replay Guards GuardSpec GuardProofs Samples.
Import ListNotations.
Open Scope string_scope.

(* C68: append, prepend, insert_after, insert_before and detach under guards do what they do without, or
   panic; they panic exactly if a node with a guard gets other neighbours, or is itself detached. *)
Theorem C68_append g p n D : reachable D -> moves_under g [] D (step (OAppend p n) D) (g_append g p n D).
Proof. exact (g_append_moves g p n D). Qed.
Print Assumptions C68_append.
Theorem C68_prepend g p n D : reachable D -> moves_under g [] D (step (OPrepend p n) D) (g_prepend g p n D).
Proof. exact (g_prepend_moves g p n D). Qed.
Print Assumptions C68_prepend.
Theorem C68_insert_after g a n D : reachable D ->
  moves_under g [] D (step (OInsertAfter a n) D) (g_insert_after g a n D).
Proof. exact (g_insert_after_moves g a n D). Qed.
Print Assumptions C68_insert_after.
Theorem C68_insert_before g a n D : reachable D ->
  moves_under g [] D (step (OInsertBefore a n) D) (g_insert_before g a n D).
Proof. exact (g_insert_before_moves g a n D). Qed.
Print Assumptions C68_insert_before.
Theorem C68_detach g n D : reachable D -> moves_under g [n] D (step (ODetach n) D) (g_detach g n D).
Proof. exact (g_detach_moves g n D). Qed.
Print Assumptions C68_detach.

(* 1 has the children 2, 5, 7, 8.  Moving 3 (child of 2) behind 5: 5, 7, 2 and 4 get other neighbours, 1 and
   8 do not. *)
Example C68_case : reachable doc /\
  (exists D', step (OInsertAfter 5 3) doc = Ok D' /\ g_insert_after (mkGuards [1; 8] [6]) 5 3 doc = Ok D') /\
  (forall x, In x [2; 3; 4; 5; 7] -> g_insert_after (mkGuards [x] []) 5 3 doc = Panic PBorrow) /\
  (forall x, In x [2; 3; 4; 5; 7] -> g_insert_after (mkGuards [] [x]) 5 3 doc = Panic PBorrow) /\
  (exists D', step (ODetach 7) doc = Ok D' /\ g_detach (mkGuards [1; 3] [2]) 7 doc = Ok D') /\
  (forall x, In x [5; 7; 8] -> g_detach (mkGuards [x] []) 7 doc = Panic PBorrow) /\
  (* detaching a node that has no relatives still needs the node itself *)
  reachable (get (run all_check [OCreateElement (QId E_G)])) /\
  g_detach (mkGuards [1] []) 1 (get (run all_check [OCreateElement (QId E_G)])) = Panic PBorrow /\
  reachable cyclic /\ (exists D', step (ODetach 1) cyclic = Ok D' /\ g_detach (mkGuards [] [0]) 1 cyclic = Ok D') /\
  (* without guards this panics, too *)
  g_append (mkGuards [] [3]) 2 2 doc = step (OAppend 2 2) doc /\ is_ok (step (OAppend 2 2) doc) = false.
Proof.
  assert (Hok : forall x y : res dom, is_ok x = true -> x = y -> exists D', x = Ok D' /\ y = Ok D').
  { intros [D'| |] y H <-; try discriminate. now exists D'. }
  split; [exact doc_reachable|]. split; [apply Hok; vm_compute; reflexivity|].
  split; [intros x Hx; repeat (destruct Hx as [<-|Hx]; [vm_compute; reflexivity|]); destruct Hx|].
  split; [intros x Hx; repeat (destruct Hx as [<-|Hx]; [vm_compute; reflexivity|]); destruct Hx|].
  split; [apply Hok; vm_compute; reflexivity|].
  split; [intros x Hx; repeat (destruct Hx as [<-|Hx]; [vm_compute; reflexivity|]); destruct Hx|].
  split; [apply (sample_reachable [OCreateElement (QId E_G)] eq_refl)|].
  split; [vm_compute; reflexivity|]. split; [exact cyclic_reachable|]. split; [apply Hok; vm_compute; reflexivity|].
  split; vm_compute; reflexivity.
Qed.

(* C69: guards, and setters under guards. *)
Theorem C69_take_ref g n :
  (held_mut g n -> take_ref n g = Panic PBorrow) /\
  (~ held_mut g n -> lawful g -> exists g', take_ref n g = Ok g' /\ lawful g' /\
     (forall x, held g' x <-> x = n \/ held g x) /\ forall x, held_mut g' x <-> held_mut g x).
Proof. exact (take_ref_cases g n). Qed.
Print Assumptions C69_take_ref.
Theorem C69_take_mut g n :
  (held g n -> take_mut n g = Panic PBorrow) /\
  (~ held g n -> lawful g -> exists g', take_mut n g = Ok g' /\ lawful g' /\
     (forall x, held g' x <-> x = n \/ held g x) /\ forall x, held_mut g' x <-> x = n \/ held_mut g x).
Proof. exact (take_mut_cases g n). Qed.
Print Assumptions C69_take_mut.
Theorem C69_set_text g n s D : same_unless (held g n) (set_text n s D) (g_set_text g n s D).
Proof. exact (set_text_under g n s D). Qed.
Print Assumptions C69_set_text.
Theorem C69_set_id g n s D : same_unless (held g n) (set_id n s D) (g_set_id g n s D).
Proof. exact (set_id_under g n s D). Qed.
Print Assumptions C69_set_id.
Theorem C69_set_tag_name g n t D : same_unless (held g n) (set_tag_name n t D) (g_set_tag_name g n t D).
Proof. exact (set_tag_under g n t D). Qed.
Print Assumptions C69_set_tag_name.
Theorem C69_remove_attribute g n name D : reachable D ->
  (has_attribute D n name = false ->
     same_unless (held_mut g n) (remove_attribute n name D) (g_remove_attribute g n name D)) /\
  (has_attribute D n name = true ->
     same_unless (remove_blocked g D n name) (remove_attribute n name D) (g_remove_attribute g n name D)).
Proof. exact (remove_under g n name D). Qed.
Print Assumptions C69_remove_attribute.
Theorem C69_set_attribute g n a D : reachable D ->
  same_unless (set_blocked g D n a) (set_attribute n a D) (g_set_attribute g n a D).
Proof. exact (set_under g n a D). Qed.
Print Assumptions C69_set_attribute.
(* [refused] says why a link is not accepted; then nothing is written. *)
Theorem C69_set_attribute_checked g n a D : reachable D ->
  (refused D n a = None ->
     same_unless (set_blocked g D n a) (set_attribute_checked n a D) (g_set_attribute_checked g n a D)) /\
  (refused D n a <> None ->
     same_unless (held_mut g n \/ exists t, link_target (a_value a) = Some t /\ held_mut g t)
       (set_attribute_checked n a D) (g_set_attribute_checked g n a D)).
Proof. exact (checked_under g n a D). Qed.
Print Assumptions C69_set_attribute_checked.
Theorem C69_set_attribute_if_none g n a D : reachable D ->
  (has_attribute D n (a_name a) = true ->
     same_unless (held_mut g n) (set_attribute_if_none n a D) (g_set_attribute_if_none g n a D)) /\
  (has_attribute D n (a_name a) = false ->
     same_unless (set_blocked g D n a) (set_attribute_if_none n a D) (g_set_attribute_if_none g n a D)).
Proof. exact (if_none_under g n a D). Qed.
Print Assumptions C69_set_attribute_if_none.
Theorem C69_copy_node g n D : reachable D -> exists_node D n -> (forall x, held g x -> exists_node D x) ->
  same_unless (held_mut g n \/
      node_type D n = NElement /\ exists a t, In a (attributes D n) /\ link_target (a_value a) = Some t /\ held g t)
    (copy_node n D) (g_copy_node g n D).
Proof. exact (copy_under g n D). Qed.
Print Assumptions C69_copy_node.
(* The functions used everywhere else are those with no guard. *)
Theorem C69_free n D : reachable D -> exists_node D n ->
  g_copy_node no_guards n D = copy_node n D /\
  (forall name, g_remove_attribute no_guards n name D = remove_attribute n name D) /\
  (forall a, g_set_attribute_checked no_guards n a D = set_attribute_checked n a D).
Proof.
  exact (fun R Hn => conj (copy_node_free n D R Hn)
    (conj (fun name => remove_free n name D) (fun a => checked_free n a D))).
Qed.
Print Assumptions C69_free.

Definition fill8 : attr := mkAttr (QId A_Fill) (VPaint 8 None).
(* 3 has fill linked to 7; it gets fill linked to 8. *)
Example C69_case : reachable doc /\ lawful (mkGuards [4; 4] [5]) /\
  (exists D', set_attribute 3 fill8 doc = Ok D' /\ g_set_attribute (mkGuards [4; 4] [5]) 3 fill8 doc = Ok D') /\
  (forall x, In x [3; 7; 8] -> g_set_attribute (mkGuards [x] []) 3 fill8 doc = Panic PBorrow) /\
  (forall x, In x [3; 7] -> g_remove_attribute (mkGuards [] [x]) 3 (QId A_Fill) doc = Panic PBorrow) /\
  g_remove_attribute (mkGuards [3; 7] []) 3 (QId A_Stroke) doc = Ok doc /\
  g_remove_attribute (mkGuards [] [3]) 3 (QId A_Stroke) doc = Panic PBorrow /\
  refused doc 7 (mkAttr (QId A_Href) (VLink 3)) = Some ElementMustHaveAnId /\
  g_set_attribute_checked (mkGuards [7; 3] []) 7 (mkAttr (QId A_Href) (VLink 3)) doc = Ok (doc, RErr ElementMustHaveAnId) /\
  g_set_attribute_checked (mkGuards [] [3]) 7 (mkAttr (QId A_Href) (VLink 3)) doc = Panic PBorrow /\
  (exists r, copy_node 3 doc = Ok r /\ g_copy_node (mkGuards [3; 4] [8]) 3 doc = Ok r) /\
  g_copy_node (mkGuards [7] []) 3 doc = Panic PBorrow /\
  take_mut 4 (mkGuards [4] []) = Panic PBorrow /\ take_ref 4 (mkGuards [4] []) = Ok (mkGuards [4; 4] []).
Proof.
  assert (Hok : forall A (x y : res A), is_ok x = true -> x = y -> exists D', x = Ok D' /\ y = Ok D').
  { intros A [D'| |] y H <-; try discriminate. now exists D'. }
  split; [exact doc_reachable|].
  split. { split; [constructor; [easy|constructor]|]. intros n [<-|[]]. cbn. intuition discriminate. }
  split; [apply Hok; vm_compute; reflexivity|].
  split; [intros x Hx; repeat (destruct Hx as [<-|Hx]; [vm_compute; reflexivity|]); destruct Hx|].
  split; [intros x Hx; repeat (destruct Hx as [<-|Hx]; [vm_compute; reflexivity|]); destruct Hx|].
  split; [vm_compute; reflexivity|]. split; [vm_compute; reflexivity|]. split; [vm_compute; reflexivity|].
  split; [vm_compute; reflexivity|]. split; [vm_compute; reflexivity|].
  split; [apply Hok; vm_compute; reflexivity|]. repeat split; vm_compute; reflexivity.
Qed.
