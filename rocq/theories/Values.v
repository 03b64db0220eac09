(* Model of the conversions and tests in /repo/src/attribute_value.rs and /repo/src/attribute.rs. *)
From Coq Require Import String List Bool NArith ZArith.
From Coq Require Import SpecFloat.
From Verif Require Import Base Ids Data Attrs Types.
Import ListNotations.
Open Scope list_scope.

(* impl_is_type and impl_is_type_without_value, attribute_value.rs:104-148. *)
Definition is_none (v : avalue) : bool := match v with VNone => true | _ => false end.
Definition is_inherit (v : avalue) : bool := match v with VInherit => true | _ => false end.
Definition is_current_color (v : avalue) : bool := match v with VCurrentColor => true | _ => false end.
Definition is_aspect_ratio (v : avalue) : bool := match v with VAspectRatio _ => true | _ => false end.
Definition is_color (v : avalue) : bool := match v with VColor _ => true | _ => false end.
Definition is_length (v : avalue) : bool := match v with VLength _ => true | _ => false end.
Definition is_length_list (v : avalue) : bool := match v with VLengthList _ => true | _ => false end.
Definition is_angle (v : avalue) : bool := match v with VAngle _ => true | _ => false end.
Definition is_link (v : avalue) : bool := match v with VLink _ => true | _ => false end.
Definition is_func_link (v : avalue) : bool := match v with VFuncLink _ => true | _ => false end.
Definition is_paint (v : avalue) : bool := match v with VPaint _ _ => true | _ => false end.
Definition is_number (v : avalue) : bool := match v with VNumber _ => true | _ => false end.
Definition is_number_list (v : avalue) : bool := match v with VNumberList _ => true | _ => false end.
Definition is_path (v : avalue) : bool := match v with VPath _ => true | _ => false end.
Definition is_points (v : avalue) : bool := match v with VPoints _ => true | _ => false end.
Definition is_string (v : avalue) : bool := match v with VString _ => true | _ => false end.
Definition is_transform (v : avalue) : bool := match v with VTransform _ => true | _ => false end.
Definition is_viewbox (v : avalue) : bool := match v with VViewBox _ => true | _ => false end.

(* AttributeValue::is_link_container, attribute_value.rs:153-160. *)
Definition is_link_container (v : avalue) : bool :=
  match v with
  | VLink _ | VFuncLink _ | VPaint _ _ => true
  | _ => false
  end.

(* impl_is_type of attribute.rs:22-29 and 71-88: the same tests on the value. *)
Definition attr_is (f : avalue -> bool) (a : attr) : bool := f (a_value a).

(* f64::from(i32) of the standard library: the nearest double, here always the exact one. *)
Definition f64_of_int (z : Z) : f64 := binary_normalize 53 1024 z 0 false.

(* The From instances, attribute_value.rs:47-102. *)
Definition from_aspect_ratio (p : payload) : avalue := VAspectRatio p.
Definition from_color (c : color) : avalue := VColor c.
Definition from_length (l : length_) : avalue := VLength l.
Definition from_length_list (p : payload) : avalue := VLengthList p.
Definition from_angle (p : payload) : avalue := VAngle p.
Definition from_f64 (x : f64) : avalue := VNumber x.
Definition from_number_list (p : payload) : avalue := VNumberList p.
Definition from_path (p : payload) : avalue := VPath p.
Definition from_points (p : payload) : avalue := VPoints p.
Definition from_string (s : str) : avalue := VString s.
Definition from_transform (p : payload) : avalue := VTransform p.
Definition from_viewbox (p : payload) : avalue := VViewBox p.
Definition from_i32 (z : Z) : avalue := VNumber (f64_of_int z).
Definition from_i32_unit (x : Z * lunit) : avalue := VLength (mkLength (f64_of_int (fst x)) (snd x)).
Definition from_f64_unit (x : f64 * lunit) : avalue := VLength (mkLength (fst x) (snd x)).
Definition from_fallback (f : fallback) : avalue :=
  match f with
  | FNone => VNone
  | FCurrentColor => VCurrentColor
  | FColor c => VColor c
  end.

(* Attribute::new, attribute.rs:33-40; the value is already converted. *)
Definition attribute_new (name : aname) (v : avalue) : attr := mkAttr name v.
(* Attribute::new_default, attribute.rs:43-48. *)
Definition attribute_default (id : aid) : option attr :=
  match default_value id with
  | Some v => Some (attribute_new (QId id) v)
  | None => None
  end.
(* Attribute::id, attribute.rs:51-56. *)
Definition attribute_id (a : attr) : option aid := match a_name a with QId id => Some id | QName _ => None end.
(* Attribute::has_id, attribute.rs:59-61, and QName::has_id, name.rs:43-48. *)
Definition attribute_has_id (a : attr) (id : aid) : bool := match a_name a with QId id2 => aid_eqb id id2 | QName _ => false end.
(* Attribute::is_svg, attribute.rs:64-69. *)
Definition attribute_is_svg (a : attr) : bool := match a_name a with QId _ => true | QName _ => false end.
