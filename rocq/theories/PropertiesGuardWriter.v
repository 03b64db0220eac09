(* C82: to_string while the user holds guards of nodes. *)
From Coq Require Import List Bool PeanoNat NArith String.
From Verif Require Import Base Ids Links Tree Iter ForestSpec TreeSpec IterSpec Data Attrs AttrFacts Slab NodeApi Doc Text Writer History Replay HistoryProofs ApiProofs
  Guards GuardDoc GuardIter GuardSpec GuardWriter GuardWriterSpec GuardWriterProofs TextSamples Samples WriterSamples.
Import ListNotations.
Open Scope list_scope.

(* C82: to_string writes what it writes without guards, if no node of the tree has a RefMut and no target of a
   link that is written has one; if one has, it panics.  Guards that are Refs do not matter, nor guards of other
   nodes. *)
Theorem C82_to_string g W D F t : reachable D -> shows (lk D) F -> tree_at F t -> t_node t = droot D ->
  exists evs, write_dom W D = Ok evs /\ same_unless (write_blocked g D t) (Ok evs) (g_write_dom g W D).
Proof. exact (to_string_under g W D F t). Qed.
Print Assumptions C82_to_string.

(* Node 7 is the target of fill and stroke, node 8 the target of the unicode attribute of node 4; both are
   detached. *)
Definition away_ops : list op :=
  doc_ops ++ [OSetAttribute 4 (mkAttr (QId A_Unicode) (VFuncLink 8)); ODetach 7; ODetach 8].
Definition away : dom := get (run all_check away_ops).
Definition away_tree : tree := T 0 [T 1 [T 2 [T 3 []; T 4 []]; T 5 [T 6 []]]].
Example C82_case :
  reachable away /\ (exists F, shows (lk away) F /\ tree_at F away_tree) /\ t_node away_tree = droot away /\
  In (mkAttr (QId A_Unicode) (VFuncLink 8)) (attributes away 4) /\
  write_blocked (mkGuards [] [6]) away away_tree /\ g_write_dom (mkGuards [] [6]) sample_writers away = Panic PBorrow /\
  write_blocked (mkGuards [] [7]) away away_tree /\ g_write_dom (mkGuards [] [7]) sample_writers away = Panic PBorrow /\
  ~ write_blocked (mkGuards [0; 1; 3; 3; 7] [8]) away away_tree /\
  g_write_dom (mkGuards [0; 1; 3; 3; 7] [8]) sample_writers away = write_dom sample_writers away.
Proof.
  assert (R : reachable away) by (apply (sample_reachable away_ops); vm_compute; reflexivity).
  split; [exact R|]. split.
  { destruct (reachable_shows away R) as (F & S). exists F. split; [exact S|].
    apply (tree_b_ok away F away_tree S). vm_compute. reflexivity. }
  split; [vm_compute; reflexivity|]. split.
  { rewrite (eq_refl : attributes away 4 = [mkAttr (QId A_Stroke) (VPaint 7 None); mkAttr (QId A_Unicode) (VFuncLink 8)]).
    right. left. reflexivity. }
  split.
  { exists 6. split; [now left|]. left. cbn. tauto. }
  split; [vm_compute; reflexivity|]. split.
  { exists 7. split; [now left|]. right. exists 3, (mkAttr (QId A_Fill) (VPaint 7 (Some FNone))).
    split; [cbn; tauto|]. split; [vm_compute; reflexivity|]. split; [vm_compute; left; reflexivity|]. split; [discriminate|reflexivity]. }
  split; [vm_compute; reflexivity|]. split; [|vm_compute; reflexivity].
  intros (x & [<-|[]] & [Hx|(n & a & Hn & He & Ha & Hu & Hl)]).
  - cbn in Hx. decompose [or] Hx; try discriminate; easy.
  - assert (C : forallb (fun n => forallb (fun a => aname_eqb (a_name a) (QId A_Unicode) ||
      negb (onid_eqb (link_target (a_value a)) (Some 8))) (attributes away n)) (preorder away_tree) = true)
      by (vm_compute; reflexivity).
    rewrite forallb_forall in C. specialize (C n Hn). rewrite forallb_forall in C. specialize (C a Ha).
    rewrite Hl in C. apply orb_true_iff in C. destruct C as [C|C]; [|discriminate C].
    exact (Hu (proj1 (aname_eqb_eq _ _) C)).
Qed.
