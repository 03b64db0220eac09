(* Specification of documents with the same content whose custom attributes are stored in the same order. *)
From Coq Require Import List Bool.
From Verif Require Import Base Data Attrs NodeApi ForestSpec Writer WriterSpec RoundSpec.
Import ListNotations.

(* The names of the attributes that are not SVG attributes, as they are stored. *)
Definition custom_names (D : dom) (n : nid) : list aname :=
  map a_name (filter (fun a => negb (is_svg_attr a)) (attributes D n)).
Definition same_order (t t' : tree) (D D' : dom) : Prop :=
  forall n n', same_place t t' n n' -> custom_names D' n' = custom_names D n.
