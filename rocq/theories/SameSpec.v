(* Specification: two documents that look the same, and two outputs of the same form. *)
From Coq Require Import List PeanoNat.
From Verif Require Import Base Ids Links Tree ForestSpec Data Attrs Slab NodeApi Doc Writer.
Import ListNotations.

(* The same value; links go to nodes with the same id. *)
Inductive same_value (D D' : dom) : avalue -> avalue -> Prop :=
| sv_plain : forall v, link_target v = None -> same_value D D' v v
| sv_link : forall t u, id_of D t = id_of D' u -> same_value D D' (VLink t) (VLink u)
| sv_func : forall t u, id_of D t = id_of D' u -> same_value D D' (VFuncLink t) (VFuncLink u)
| sv_paint : forall t u f, id_of D t = id_of D' u -> same_value D D' (VPaint t f) (VPaint u f).

(* Two trees of nodes with the same contents. *)
Inductive same_tree (D D' : dom) : tree -> tree -> Prop :=
| st_intro : forall n m ts us, node_type D n = node_type D' m -> tag_name D n = tag_name D' m -> id_of D n = id_of D' m ->
    text_of D n = text_of D' m ->
    Forall2 (fun a b => a_name a = a_name b /\ same_value D D' (a_value a) (a_value b)) (attributes D n) (attributes D' m) ->
    Forall2 (same_tree D D') ts us ->
    same_tree D D' (T n ts) (T m us).

(* Two calls of the XML writer that differ at most in the value of an attribute. *)
Inductive same_form : event -> event -> Prop :=
| sf_same : forall e, same_form e e
| sf_value : forall s v w, same_form (ERaw s v) (ERaw s w).

(* A value whose text does not depend on how numbers and colors are written. *)
Definition fixed_text (v : avalue) : Prop :=
  match v with
  | VNone | VInherit | VCurrentColor | VString _ | VLink _ | VFuncLink _ | VPaint _ None | VPaint _ (Some FNone)
  | VPaint _ (Some FCurrentColor) => True
  | _ => False
  end.
