(* C75-C76: several documents in one program. *)
From Coq Require Import List Bool PeanoNat NArith String.
From Verif Require Import Base Ids Links Tree ForestSpec TreeSpec TreeApi Data Attrs Slab NodeApi AttrSpec AttrFacts LinkProofs Doc
  History Replay Samples TextSamples World WorldSpec WorldInv MixProofs WorldSamples
  DocSpec PruneFacts MixRemove.
Import ListNotations.
Open Scope string_scope.

(* C75: documents do not influence each other while a program gives to a document only its own nodes.  Each
   document, seen alone, is a document reached by calls on one document only ... *)
Theorem C75_alone W i V : wreach own_nodes W -> view W i = Some V -> exists f D, alone W i V f D.
Proof. exact (docs_alone W i V). Qed.
Print Assumptions C75_alone.
(* ... each call on it does what it does on the document alone: it returns for the same nodes, panics alike,
   and what it leaves is again the document left alone ... *)
Theorem C75_calls W i o V : wreach own_nodes W -> own_nodes i o W -> view W i = Some V ->
  exists f D o0, alone W i V f D /\ legal o0 D /\ renamed_op f o0 o /\
    (forall D', step o0 D = Ok D' -> exists V', step o V = Ok V' /\ shows_doc f D' V') /\
    (forall V', step o V = Ok V' -> exists D', step o0 D = Ok D' /\ shows_doc f D' V') /\
    (forall p, step o0 D = Panic p -> step o V = Panic p).
Proof. exact (docs_calls W i o V). Qed.
Print Assumptions C75_calls.
(* ... and so does its drop. *)
Theorem C75_drop W i V : wreach own_nodes W -> view W i = Some V -> exists f D, alone W i V f D /\
  (forall D', drop_document D = Ok D' -> exists V', drop_document V = Ok V' /\ shows_doc f D' V') /\
  (forall V', drop_document V = Ok V' -> exists D', drop_document D = Ok D' /\ shows_doc f D' V') /\
  (forall p, drop_document D = Panic p <-> drop_document V = Panic p).
Proof. exact (docs_drop W i V). Qed.
Print Assumptions C75_drop.
(* The other documents stay as they are. *)
Theorem C75_call_apart W i o W' j : wreach own_nodes W -> own_nodes i o W -> call i o W = Ok W' -> j <> i -> untouched W W' j.
Proof. exact (docs_call_apart W i o W' j). Qed.
Print Assumptions C75_call_apart.
Theorem C75_drop_apart W i W' j : wreach own_nodes W -> drop_doc i W = Ok W' -> j <> i -> untouched W W' j.
Proof. exact (docs_drop_apart W i W' j). Qed.
Print Assumptions C75_drop_apart.
Theorem C75_open_apart W W' j : wreach own_nodes W -> open_doc W = Ok W' -> untouched W W' j.
Proof. exact (docs_open_apart W W' j). Qed.
Print Assumptions C75_open_apart.
(* Two documents with the same key for different nodes; the second changes and is dropped. *)
Example C75_case : wreach own_nodes two /\ own_nodes 1 (ORemoveNode 7) two /\
  storage_key (mkDom (w_lk two) (w_dt two) (w_fresh two) 0 slab_new) 7 = Some 3 /\
  storage_key (mkDom (w_lk two) (w_dt two) (w_fresh two) 0 slab_new) 4 = Some 3 /\
  exists W', call 1 (ORemoveNode 7) two = Ok W' /\ d_attrs (w_dt two 6) <> [] /\ d_attrs (w_dt W' 6) = [] /\
    d_attrs (w_dt W' 3) = [mkAttr (QId A_Fill) (VPaint 4 None)] /\
    exists W2, drop_doc 1 W' = Ok W2 /\ l_parent (w_lk W2) 6 = None /\ l_parent (w_lk W2) 3 = Some 2 /\
      view W2 1 = None /\ exists W3, open_doc W2 = Ok W3 /\ List.length (w_docs W3) = 3.
Proof.
  split; [exact two_own|]. split; [apply ownb_sound; vm_compute; reflexivity|]. split; [vm_compute; reflexivity|]. split; [vm_compute; reflexivity|].
  apply ok_case. vm_compute. repeat (split; [first [discriminate|reflexivity]|]). eexists. split; [reflexivity|].
  vm_compute. repeat (split; [reflexivity|]). eexists. split; reflexivity.
Qed.

(* C76: nodes may be passed to another document: the documents go on working.  False: remove_node called on the
   first document with a node of the second frees the place of another node, of the first document, which then
   cannot be removed any more ... *)
Theorem C76_refuted : exists W V n m V', wreach own_nodes W /\ view W 0 = Some V /\ exists_node V n /\ exists_node V m /\
  w_owner W n = 1 /\ w_owner W m = 0 /\ remove_node n V = Ok V' /\ is_detached V' m = false /\
  storage_key V' m = storage_key V m /\ remove_node m V' = Panic PSlabKey.
Proof.
  assert (H : match view two 0 with
              | Some V => exists V', remove_node 7 V = Ok V' /\ is_detached V' 4 = false /\ storage_key V' 4 = storage_key V 4 /\
                            remove_node 4 V' = Panic PSlabKey
              | None => False end).
  { vm_compute. eexists. split; [reflexivity|]. vm_compute. tauto. }
  destruct (view two 0) as [V|] eqn:E; [|easy]. destruct H as (V' & H1 & H2 & H3 & H4).
  assert (F : fresh V = 8) by (apply view_some in E; destruct E as (_ & _ & -> & _); vm_compute; reflexivity).
  exists two, V, 7, 4, V'. split; [exact two_own|]. split; [exact E|].
  split; [unfold exists_node; rewrite F; apply le_n|]. split; [unfold exists_node; rewrite F; repeat constructor|].
  split; [vm_compute; reflexivity|]. split; [vm_compute; reflexivity|]. tauto.
Qed.
Print Assumptions C76_refuted.
(* ... and the drop of the second document takes its nodes out of the tree of the first, and leaves there an
   attribute that cannot be removed or replaced. *)
Theorem C76_drop_refuted : exists W W' V' n x, wreach any_nodes W /\ drop_doc 1 W = Ok W' /\ view W' 0 = Some V' /\
  w_owner W n = 1 /\ w_owner W x = 0 /\ l_parent (w_lk W) n = Some 2 /\ w_owner W 2 = 0 /\ l_parent (lk V') n = None /\
  attrs_get_value (attributes V' x) (QId A_Stroke) = Some (VPaint n None) /\ linked_nodes V' n = [] /\
  remove_attribute x (QId A_Stroke) V' = Panic PUnwrap.
Proof.
  assert (H : exists W', drop_doc 1 mixed = Ok W' /\ exists V', view W' 0 = Some V' /\ l_parent (lk V') 7 = None /\
    attrs_get_value (attributes V' 3) (QId A_Stroke) = Some (VPaint 7 None) /\ linked_nodes V' 7 = [] /\
    remove_attribute 3 (QId A_Stroke) V' = Panic PUnwrap).
  { apply ok_case. vm_compute. eexists. split; [reflexivity|]. vm_compute. tauto. }
  destruct H as (W' & H1 & V' & H2 & H3). exists mixed, W', V', 7, 3. split; [exact mixed_any|]. split; [exact H1|]. split; [exact H2|].
  repeat (split; [vm_compute; reflexivity|]). exact H3.
Qed.
Print Assumptions C76_drop_refuted.
(* What is left: the trees of all documents are consistent after any program that returns, also after drops ... *)
Theorem C76_trees_partial W i V : wreach any_nodes W -> view W i = Some V -> exists F, shows (lk V) F.
Proof. exact (mix_shows W i V). Qed.
Print Assumptions C76_trees_partial.
(* ... attribute names are unique and the links of all nodes are symmetric until a document is dropped ... *)
Theorem C76_links_partial W i V : wreach any_nodes W -> nothing_dropped W -> view W i = Some V ->
  (forall n, NoDup (map a_name (attributes V n))) /\
  (forall a b, count_occ Nat.eq_dec (linked_nodes V b) a = count_links b (attributes V a)).
Proof. intros H Hd HV. destruct (mix_KI W i V H Hd HV) as (HL & _). split; [apply (li_uniq V HL)|apply (li_sym V HL)]. Qed.
Print Assumptions C76_links_partial.
(* ... and remove_node frees, in the document it is called on, the place with the key of the node: exactly that. *)
Theorem C76_remove_partial W i V n : wreach any_nodes W -> nothing_dropped W -> view W i = Some V -> first_child (lk V) n = None ->
  match storage_key V n with
  | None => exists V', remove_node n V = Ok V' /\ store V' = store V
  | Some k => match slab_get (store V) k with
              | None => remove_node n V = Panic PSlabKey
              | Some _ => exists V', remove_node n V = Ok V' /\ slab_get (store V') k = None /\
                  (forall j, j <> k -> slab_get (store V') j = slab_get (store V) j) /\
                  storage_key V' n = None /\ forall m, m <> n -> storage_key V' m = storage_key V m
              end
  end.
Proof. intros H Hd HV. exact (remove_leaf V n (mix_TI W i V H HV) (mix_KI W i V H Hd HV)). Qed.
Print Assumptions C76_remove_partial.
(* The same for a node with its whole finite subtree: the call returns exactly if the keys of the subtree are
   different and all in use in the document it is called on.  It takes the subtree out of its tree and frees
   the places with these keys and no other. *)
Theorem C76_remove_tree_partial W i V F t : wreach any_nodes W -> nothing_dropped W -> view W i = Some V -> shows (lk V) F ->
  tree_at F t -> exists_node V (t_node t) ->
  let ks := keys_of V (preorder t) in
  let fits := NoDup ks /\ forall k, In k ks -> slab_get (store V) k <> None in
  (fits -> exists V', remove_node (t_node t) V = Ok V' /\ shows (lk V') (f_prune (preorder t) F) /\ removed (preorder t) V V' /\
     forall k, slab_get (store V') k = if mem k ks then None else slab_get (store V) k) /\
  (~ fits -> remove_node (t_node t) V = Panic PSlabKey).
Proof.
  intros H Hd HV S Ht Hn ks fits. destruct (remove_any V F t (mix_TI W i V H HV) (mix_KI W i V H Hd HV) (proj1 (shows_Rep _ _) S) Ht Hn) as (A & B).
  split; [|exact B]. intros Hf. destruct (A Hf) as (V' & E & R & Hr & Hs). exists V'. split; [exact E|].
  split; [now apply shows_Rep|]. now split.
Qed.
Print Assumptions C76_remove_tree_partial.
(* The first document is asked to remove a tree of the second: it frees the places of its own svg, rect and
   gradient.  And a tree with nodes of both documents cannot be removed by either. *)
Definition seen (W : world) (i : nat) : dom := match view W i with Some V => V | None => mkDom no_links (fun _ => blank) 0 0 slab_new end.
Lemma seen_ok W i : option_map droot (view W i) <> None -> view W i = Some (seen W i).
Proof. unfold seen. now destruct (view W i). Qed.
Example C76_tree_case :
  (wreach any_nodes two /\ nothing_dropped two /\ exists V F, view two 0 = Some V /\ shows (lk V) F /\ tree_at F (T 5 [T 6 []; T 7 []]) /\
     exists_node V 5 /\ keys_of V [5; 6; 7] = [1; 2; 3] /\ map (slab_get (store V)) [1; 2; 3] = [Some 2; Some 3; Some 4] /\
     exists V', remove_node 5 V = Ok V' /\ map (slab_get (store V')) [1; 2; 3] = [None; None; None] /\
       map (storage_key V') [2; 3; 4; 5] = [Some 1; Some 2; Some 3; None]) /\
  (wreach any_nodes mixed /\ exists V F, view mixed 0 = Some V /\ shows (lk V) F /\ tree_at F (T 2 [T 3 []; T 4 []; T 6 []; T 7 []]) /\
     keys_of V [2; 3; 4; 6; 7] = [1; 2; 3; 2; 3] /\ remove_node 2 V = Panic PSlabKey).
Proof.
  assert (N : forall W : world, List.length (w_docs W) = 2 -> nth_error (w_docs W) 0 <> Some None -> nth_error (w_docs W) 1 <> Some None -> nothing_dropped W).
  { intros W E H0 H1 j. destruct j as [|[|j]]; [exact H0|exact H1|]. rewrite (proj2 (nth_error_None _ _)); [discriminate|]. rewrite E.
    do 2 apply le_n_S. apply Nat.le_0_l. }
  split.
  - assert (A : wreach any_nodes two).
    { generalize two_own. generalize two. induction 1 as [|W W' _ IH E|W i o W' _ IH (_ & D & HV & Hl & _) E|W i W' _ IH E].
      - constructor.
      - exact (wr_open _ W W' IH E).
      - exact (wr_call _ W i o W' IH (ex_intro _ D (conj HV Hl)) E).
      - exact (wr_drop _ W i W' IH E). }
    split; [exact A|]. split; [apply N; vm_compute; [reflexivity|discriminate|discriminate]|].
    assert (E : view two 0 = Some (seen two 0)) by (apply seen_ok; vm_compute; discriminate). destruct (mix_shows two 0 _ A E) as (F & S).
    exists (seen two 0), F. split; [exact E|]. split; [exact S|].
    split; [apply (tree_b_ok _ F _ S); vm_compute; reflexivity|]. split; [vm_compute; repeat constructor|].
    split; [vm_compute; reflexivity|]. split; [vm_compute; reflexivity|]. apply ok_case. vm_compute. split; reflexivity.
  - split; [exact mixed_any|].
    assert (E : view mixed 0 = Some (seen mixed 0)) by (apply seen_ok; vm_compute; discriminate).
    destruct (mix_shows mixed 0 _ mixed_any E) as (F & S). exists (seen mixed 0), F. split; [exact E|]. split; [exact S|].
    split; [apply (tree_b_ok _ F _ S); vm_compute; reflexivity|]. split; vm_compute; reflexivity.
Qed.
Example C76_case : wreach any_nodes mixed /\ nothing_dropped mixed /\ l_parent (w_lk mixed) 7 = Some 2 /\ w_owner mixed 7 = 1 /\
  w_owner mixed 2 = 0 /\ d_linked (w_dt mixed 7) = [6; 3] /\ exists V, view mixed 1 = Some V /\ first_child (lk V) 7 = None /\
  storage_key V 7 = Some 3 /\ slab_get (store V) 3 = Some 7.
Proof.
  split; [exact mixed_any|]. split.
  - intros j. destruct j as [|[|j]]; [vm_compute; discriminate|vm_compute; discriminate|].
    replace (nth_error (w_docs mixed) (S (S j))) with (@None (option (nid * slab))); [discriminate|]. vm_compute. now destruct j.
  - repeat (split; [vm_compute; reflexivity|]). eexists. split; [vm_compute; reflexivity|]. vm_compute. tauto.
Qed.
