(* Specification: what guards held by the user do to printing a node and to svg_element(). *)
From Coq Require Import List.
From Verif Require Import Base Ids Links ForestSpec Data Attrs NodeApi Guards GuardSpec GuardIterSpec.
Import ListNotations.

(* Printing [n]: the node has a RefMut, or it is an element and a node one of its attributes is a link to
   has one. *)
Definition print_blocked (g : guards) (D : dom) (n : nid) : Prop :=
  held_mut g n \/
  is_element D n = true /\ exists a x, In a (attributes D n) /\ link_target (a_value a) = Some x /\ held_mut g x.
(* The debug form also shows the users. *)
Definition debug_blocked (g : guards) (D : dom) (n : nid) : Prop :=
  print_blocked g D n \/ is_element D n = true /\ exists x, In x (linked_nodes D n) /\ held_mut g x.

(* svg_element(): the root node has a RefMut, or the last of its children, or one of its children that
   no svg element comes before. *)
Definition svg_blocked (g : guards) (D : dom) (F : forest) : Prop :=
  exists x, held_mut g x /\
    (x = droot D \/ final (children_of F (droot D)) = Some x \/
     exists pre post, children_of F (droot D) = pre ++ x :: post /\
       forall y, In y pre -> tag_name D y <> QId E_Svg).
