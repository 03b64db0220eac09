(* C55: further properties of all histories. *)
From Coq Require Import List Bool PeanoNat NArith.
From Verif Require Import Base Ids Links Data Attrs Slab NodeApi Doc History Samples AimProofs.
Import ListNotations.

(* C55: links point to elements. *)
Theorem C55_links_to_elements D : reachable_tame D -> forall n a t,
  In a (attributes D n) -> link_target (a_value a) = Some t -> is_element D t = true.
Proof. exact (tame_aimed D). Qed.
Print Assumptions C55_links_to_elements.
Example C55_case : reachable_tame doc /\ In (mkAttr (QId A_Href) (VLink 7)) (attributes doc 8) /\ is_element doc 7 = true.
Proof. split; [exact doc_tame|]. vm_compute. tauto. Qed.
