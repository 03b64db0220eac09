(* Model of /repo/src/writer.rs and of the value writer in /repo/src/attribute_value.rs.

   The crate xmlwriter is not part of the repository: the model records the calls svgdom makes on
   XmlWriter, in order, as a list of events.  The text buffer is not modelled. *)
From Coq Require Import String List Bool PeanoNat NArith.
From Verif Require Import Base Ids Names Links Tree Iter Data Attrs Slab NodeApi Doc Text.
Import ListNotations.
Open Scope list_scope.

(* Calls of the methods of XmlWriter: start_element, write_attribute, write_attribute_raw,
   set_preserve_whitespaces, write_comment, write_text and end_element.  The bytes a closure of
   write_attribute_raw pushes are given as the string they encode. *)
Inductive event :=
| EStart (name : str)
| EAttr (name value : str)
| ERaw (name value : str)
| EPreserve (b : bool)
| EComment (s : str)
| EText (s : str)
| EEnd.

(* The functions write_buf_opt of the crate svgtypes, for some fixed ValueWriteOptions: any functions. *)
Record writers := mkWriters {
  w_number : f64 -> str;
  w_length : length_ -> str;
  w_color : color -> str;
  w_ratio : payload -> str;
  w_length_list : payload -> str;
  w_angle : payload -> str;
  w_number_list : payload -> str;
  w_path : payload -> str;
  w_points : payload -> str;
  w_transform : payload -> str;
  w_viewbox : payload -> str
}.

(* The fallback part of a paint, attribute_value.rs:288-295. *)
Definition write_fallback (W : writers) (f : fallback) : str :=
  match f with
  | FNone => lit "none"
  | FCurrentColor => lit "currentColor"
  | FColor c => w_color W c
  end.

(* AttributeValue::write_buf_opt, attribute_value.rs:240-308. *)
Definition write_value (W : writers) (D : dom) (v : avalue) : str :=
  match v with
  | VNone => lit "none"
  | VInherit => lit "inherit"
  | VCurrentColor => lit "currentColor"
  | VString s => s
  | VNumber x => w_number W x
  | VNumberList p => w_number_list W p
  | VLength l => w_length W l
  | VLengthList p => w_length_list W p
  | VAngle p => w_angle W p
  | VTransform p => w_transform W p
  | VPath p => w_path W p
  | VPoints p => w_points W p
  | VLink n => lit "#" ++ id_of D n
  | VFuncLink n => lit "url(#" ++ id_of D n ++ lit ")"
  | VPaint n f =>
      lit "url(#" ++ id_of D n ++ lit ")" ++
      match f with Some f => lit " " ++ write_fallback W f | None => [] end
  | VColor c => w_color W c
  | VViewBox p => w_viewbox W p
  | VAspectRatio p => w_ratio W p
  end.

(* The digits of "{:x}" (core::fmt::LowerHex for u32), used in writer.rs:247. *)
Definition hex_digit (d : N) : chr := (if d <? 10 then 48 + d else 87 + d)%N.
Fixpoint hex_loop (fuel : nat) (x : N) (acc : str) : str :=
  let acc := hex_digit (x mod 16) :: acc in
  match fuel with
  | O => acc
  | S f => if (x / 16 =? 0)%N then acc else hex_loop f (x / 16)%N acc
  end.
(* The number of binary digits bounds the number of hexadecimal ones. *)
Definition hex (x : N) : str := hex_loop (N.size_nat x) x [].

(* str::starts_with. *)
Fixpoint starts_with (p s : str) : bool :=
  match p, s with
  | [], _ => true
  | a :: p', b :: s' => N.eqb a b && starts_with p' s'
  | _ :: _, [] => false
  end.

(* write_escaped, writer.rs:239-251. *)
Definition write_escaped (s : str) : str :=
  if starts_with (lit "&#") s then s
  else flat_map (fun c => lit "&#x" ++ hex c ++ lit ";") s.

(* node.descendants().any(..), writer.rs:192: stops at the first match. *)
Fixpoint any_descendant (fuel : nat) (D : dom) (p : nid -> bool) (it : traverse_it) : res bool :=
  match fuel with
  | O => Diverge
  | S f =>
      r <- descendants_next fuel (lk D) it ;;
      match r with
      | (Some n, it') => if p n then Ok true else any_descendant f D p it'
      | (None, _) => Ok false
      end
  end.

(* slice::sort_by_key, writer.rs:210: a stable sort. *)
Fixpoint insert_by {A} (key : A -> N) (x : A) (l : list A) : list A :=
  match l with
  | [] => [x]
  | y :: t => if (key y <? key x)%N then y :: insert_by key x t else x :: l
  end.
Fixpoint sort_by {A} (key : A -> N) (l : list A) : list A :=
  match l with
  | [] => []
  | x :: t => insert_by key x (sort_by key t)
  end.

(* The match on the id, writer.rs:214-218. *)
Definition attr_id_str (id : aid) : res str :=
  match id with
  | A_Href => Ok (lit "xlink:href")
  | A_Space => Ok (lit "xml:space")
  | _ => attribute_as_str id
  end.

(* The loop body over the sorted ids, writer.rs:212-230. *)
Definition write_svg_attr (W : writers) (D : dom) (attrs : list attr) (x : aid * aname) : res (list event) :=
  attr <- unwrap (attrs_get attrs (snd x)) ;;
  name <- attr_id_str (fst x) ;;
  if aid_eqb (fst x) A_Unicode then
    match a_value attr with
    | VString s => Ok [ERaw name (write_escaped s)]
    | _ => Ok []
    end
  else Ok [ERaw name (write_value W D (a_value attr))].

(* The loop over the other attributes, writer.rs:232-236. *)
Definition write_custom_attr (W : writers) (D : dom) (a : attr) : list event :=
  match a_name a with
  | QName name => [ERaw name (write_value W D (a_value a))]
  | QId _ => []
  end.

(* The namespaces, writer.rs:187-197. *)
Definition write_namespaces (D : dom) (node : nid) : res (list event) :=
  if has_tag_name D node (QId E_Svg) then
    match parent (lk D) node with
    | Some p =>
        if is_root D p then
          xlink <- any_descendant (2 * enough D) D (fun n => has_attribute D n (QId A_Href)) (traverse node) ;;
          Ok (EAttr (lit "xmlns") (lit "http://www.w3.org/2000/svg") ::
              if xlink then [EAttr (lit "xmlns:xlink") (lit "http://www.w3.org/1999/xlink")] else [])
        else Ok []
    | None => Ok []
    end
  else Ok [].

(* write_attributes, writer.rs:182-237. *)
Definition write_attributes (W : writers) (D : dom) (node : nid) : res (list event) :=
  ns <- write_namespaces D node ;;
  let attrs := attributes D node in
  let ids := sort_by (fun x => aid_idx (fst x)) (map (fun x => (fst x, a_name (snd x))) (attrs_svg attrs)) in
  svg <- flat_res (write_svg_attr W D attrs) ids ;;
  Ok (ns ++ (if has_id D node then [EAttr (lit "id") (id_of D node)] else []) ++
      svg ++ flat_map (write_custom_attr W D) attrs).

(* The name of an element, writer.rs:143-146. *)
Definition tag_str (t : tagname) : res str :=
  match t with QId e => element_as_str e | QName s => Ok s end.

(* The loop body of write_dom, writer.rs:137-170. *)
Definition write_edge (W : writers) (D : dom) (e : edge) : res (list event) :=
  match e with
  | Start node =>
      match node_type D node with
      | NRoot => Ok []
      | NElement =>
          name <- tag_str (tag_name D node) ;;
          attrs <- write_attributes W D node ;;
          Ok (EStart name :: attrs ++ if has_tag_name D node (QId E_Text) then [EPreserve true] else [])
      | NComment => Ok [EComment (text_of D node)]
      | NText => Ok [EText (text_of D node)]
      end
  | End node =>
      Ok ((if is_element D node then [EEnd] else []) ++
          (if has_tag_name D node (QId E_Text) then [EPreserve false] else []))
  end.

(* write_dom, writer.rs:128-174 (the edges are collected first: the loop changes nothing). *)
Definition write_dom (W : writers) (D : dom) : res (list event) :=
  l <- traverse_collect (2 * enough D) (lk D) (traverse (droot D)) ;;
  flat_res (write_edge W D) l.
