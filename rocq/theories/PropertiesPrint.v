(* C85: printing a node and svg_element() while the user holds guards. *)
From Coq Require Import String List Bool PeanoNat NArith.
From Verif Require Import Base Ids Names Links Tree ForestSpec TreeSpec Data Attrs Slab NodeApi Doc History Replay Writer Display
  Guards GuardSpec GuardIterSpec GuardPrint GuardPrintSpec GuardPrintProofs TreeApi Samples WriterSamples ApiProofs.
Import ListNotations.
Open Scope list_scope.
Open Scope nat_scope.

(* C85: printing a node gives what it gives without guards, if neither the node nor, for an element, a node that
   one of its attributes is a link to has a RefMut; if one has, it panics. *)
Theorem C85_display g W D n :
  exists s, display_node W D n = Ok s /\ same_unless (print_blocked g D n) (Ok s) (g_display_node g W D n).
Proof. exact (display_under g W D n). Qed.
Print Assumptions C85_display.
(* The debug form also needs the users of an element. *)
Theorem C85_debug g W D n :
  exists s, debug_node W D n = Ok s /\ same_unless (debug_blocked g D n) (Ok s) (g_debug_node g W D n).
Proof. exact (debug_under g W D n). Qed.
Print Assumptions C85_debug.
(* svg_element() panics if the root node, the last of its children or one of its children up to the svg
   element has a RefMut; otherwise it gives what it gives without guards. *)
Theorem C85_svg_element g D F : reachable D -> shows (lk D) F ->
  exists r, svg_element D = Ok r /\ same_unless (svg_blocked g D F) (Ok r) (g_svg_element g D).
Proof. exact (svg_element_under g D F). Qed.
Print Assumptions C85_svg_element.

(* The root has the children 1 (a comment), 2 (svg), 3 (g) and 4 (rect). *)
Definition four_ops : list op :=
  [ OCreateNode NComment (lit "c"); OCreateElement (QId E_Svg); OCreateElement (QId E_G); OCreateElement (QId E_Rect);
    OAppend 0 1; OAppend 0 2; OAppend 0 3; OAppend 0 4 ].
Definition four : dom := get (run all_check four_ops).
Example C85_case :
  g_display_node (mkGuards [7] []) sample_writers doc 3 = display_node sample_writers doc 3 /\
  g_display_node (mkGuards [] [7]) sample_writers doc 3 = Panic PBorrow /\
  g_display_node (mkGuards [] [3]) sample_writers doc 7 = display_node sample_writers doc 7 /\
  g_debug_node (mkGuards [] [3]) sample_writers doc 7 = Panic PBorrow /\
  reachable four /\ (exists F, shows (lk four) F) /\ svg_element four = Ok (Some 2) /\
  g_svg_element (mkGuards [2; 4] [3]) four = Ok (Some 2) /\ g_svg_element (mkGuards [] [4]) four = Panic PBorrow /\
  g_svg_element (mkGuards [] [1]) four = Panic PBorrow.
Proof.
  do 4 (split; [vm_compute; reflexivity|]). assert (H : reachable four) by exact (sample_reachable four_ops eq_refl).
  split; [exact H|]. split; [exact (reachable_shows four H)|]. vm_compute. repeat split; reflexivity.
Qed.
