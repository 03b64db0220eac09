(* Data of a node: names, attribute values, attributes, struct NodeData. *)
From Coq Require Import List Bool PeanoNat NArith.
From Coq Require Import SpecFloat.
From Verif Require Import Base Ids Links.
Import ListNotations.

(* NodeType, lib.rs:163-178. *)
Inductive ntype := NRoot | NElement | NComment | NText.

(* derive(PartialEq) of NodeType, lib.rs:164. *)
Definition ntype_eqb (a b : ntype) : bool :=
  match a, b with
  | NRoot, NRoot | NElement, NElement | NComment, NComment | NText, NText => true
  | _, _ => false
  end.

(* QName<T>, name.rs:25-31.  QNameRef<T> (name.rs:72-78) is the same type here: as_ref
   (name.rs:35-40) and From<QNameRef> (name.rs:102-109) only borrow and clone. *)
Inductive qname (T : Type) :=
| QId (id : T)
| QName (s : str).
Arguments QId {T} id.
Arguments QName {T} s.

(* derive(PartialEq) of QName and QNameRef, name.rs:25 and 72. *)
Definition aname := qname aid.
Definition tagname := qname eid.
Definition aname_eqb (a b : aname) : bool :=
  match a, b with
  | QId x, QId y => aid_eqb x y
  | QName x, QName y => str_eqb x y
  | _, _ => false
  end.
Definition tag_eqb (a b : tagname) : bool :=
  match a, b with
  | QId x, QId y => eid_eqb x y
  | QName x, QName y => str_eqb x y
  | _, _ => false
  end.

(* QName::has_id for attributes, name.rs:43-48. *)
Definition name_has_id (q : aname) (a : aid) : bool :=
  match q with QId b => aid_eqb a b | QName _ => false end.

(* f64 is the IEEE format of the standard library (no axioms). *)
Definition f64 := spec_float.

(* svgtypes::Color (crate svgtypes): three bytes. *)
Record color := mkColor { red : N; green : N; blue : N }.

(* svgtypes::LengthUnit and Length (crate svgtypes). *)
Inductive lunit := UNone | UEm | UEx | UPx | UIn | UCm | UMm | UPt | UPc | UPercent.
Record length_ := mkLength { len_num : f64; len_unit : lunit }.

(* Payloads of the crate svgtypes that svgdom only passes around (AspectRatio, LengthList, Angle,
   NumberList, Path, Points, Transform, ViewBox): an opaque identity (simplification). *)
Definition payload := N.

(* svgtypes::PaintFallback. *)
Inductive fallback := FNone | FCurrentColor | FColor (c : color).

(* AttributeValue, attribute_value.rs:27-48. *)
Inductive avalue :=
| VNone
| VInherit
| VCurrentColor
| VAspectRatio (p : payload)
| VColor (c : color)
| VFuncLink (n : nid)
| VPaint (n : nid) (f : option fallback)
| VLength (l : length_)
| VLengthList (p : payload)
| VAngle (p : payload)
| VLink (n : nid)
| VNumber (x : f64)
| VNumberList (p : payload)
| VPath (p : payload)
| VPoints (p : payload)
| VTransform (p : payload)
| VViewBox (p : payload)
| VString (s : str).

(* AttributeValue::is_link_container, attribute_value.rs:156-163. *)
Definition is_link_container (v : avalue) : bool :=
  match v with VLink _ | VFuncLink _ | VPaint _ _ => true | _ => false end.

(* The node inside a link value: the pattern Link(ref n) | FuncLink(ref n) | Paint(ref n, _) of
   node.rs:572-575 and document.rs:264-267. *)
Definition link_target (v : avalue) : option nid :=
  match v with VLink n | VFuncLink n | VPaint n _ => Some n | _ => None end.

(* Attribute, attribute.rs:14-19. *)
Record attr := mkAttr { a_name : aname; a_value : avalue }.

(* NodeData, lib.rs:182-190. *)
Record ndata := mkData {
  d_key    : option nat;   (* storage_key: Option<usize> *)
  d_type   : ntype;        (* node_type *)
  d_tag    : tagname;      (* tag_name *)
  d_id     : str;          (* id *)
  d_attrs  : list attr;    (* attributes: Vec<Attribute>, attributes.rs:58 *)
  d_linked : list nid;     (* linked_nodes: Vec<Node> *)
  d_text   : str           (* text *)
}.

Definition set_key (v : option nat) (d : ndata) : ndata :=
  mkData v (d_type d) (d_tag d) (d_id d) (d_attrs d) (d_linked d) (d_text d).
Definition set_tag (v : tagname) (d : ndata) : ndata :=
  mkData (d_key d) (d_type d) v (d_id d) (d_attrs d) (d_linked d) (d_text d).
Definition set_id_field (v : str) (d : ndata) : ndata :=
  mkData (d_key d) (d_type d) (d_tag d) v (d_attrs d) (d_linked d) (d_text d).
Definition set_attrs (v : list attr) (d : ndata) : ndata :=
  mkData (d_key d) (d_type d) (d_tag d) (d_id d) v (d_linked d) (d_text d).
Definition set_linked (v : list nid) (d : ndata) : ndata :=
  mkData (d_key d) (d_type d) (d_tag d) (d_id d) (d_attrs d) v (d_text d).
Definition set_text_field (v : str) (d : ndata) : ndata :=
  mkData (d_key d) (d_type d) (d_tag d) (d_id d) (d_attrs d) (d_linked d) v.

(* The NodeData literals of Document::new, create_element and create_node, document.rs:70-78,
   124-132, 152-160. *)
Definition new_data (t : ntype) (tag : tagname) (text : str) : ndata :=
  mkData None t tag [] [] [] text.
