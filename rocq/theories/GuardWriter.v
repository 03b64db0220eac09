(* Document::to_string_with_opt while the user holds guards: the functions of Writer.v with each borrow
   written out.  The guard node.attributes() of write_attributes (writer.rs:204) is a Ref: nothing borrows
   mutably here, so it stands in the way of nothing. *)
From Coq Require Import String List Bool PeanoNat NArith.
From Verif Require Import Base Ids Names Links Tree Iter Data Attrs Slab NodeApi Doc Text Writer Guards GuardDoc GuardIter.
Import ListNotations.
Open Scope list_scope.

(* AttributeValue::write_buf_opt, attribute_value.rs:240-308: n.id() at lines 280, 284 and 289. *)
Definition g_write_value (g : guards) (W : writers) (D : dom) (v : avalue) : res str :=
  match v with
  | VLink n | VFuncLink n | VPaint n _ => reading g n (Ok (write_value W D v))
  | _ => Ok (write_value W D v)
  end.

(* node.descendants().any(..), writer.rs:192: has_attribute() borrows. *)
Fixpoint g_any_descendant (fuel : nat) (g : guards) (D : dom) (p : nid -> bool) (it : traverse_it) : res bool :=
  match fuel with
  | O => Diverge
  | S f =>
      r <- g_descendants_next fuel g (lk D) it ;;
      match r with
      | (Some n, it') => reading g n (if p n then Ok true else g_any_descendant f g D p it')
      | (None, _) => Ok false
      end
  end.

(* The loop body over the sorted ids, writer.rs:212-230. *)
Definition g_write_svg_attr (g : guards) (W : writers) (D : dom) (attrs : list attr) (x : aid * aname)
  : res (list event) :=
  attr <- unwrap (attrs_get attrs (snd x)) ;;
  name <- attr_id_str (fst x) ;;
  if aid_eqb (fst x) A_Unicode then
    match a_value attr with
    | VString s => Ok [ERaw name (write_escaped s)]
    | _ => Ok []
    end
  else v <- g_write_value g W D (a_value attr) ;; Ok [ERaw name v].

(* The loop over the other attributes, writer.rs:232-236. *)
Definition g_write_custom_attr (g : guards) (W : writers) (D : dom) (a : attr) : res (list event) :=
  match a_name a with
  | QName name => v <- g_write_value g W D (a_value a) ;; Ok [ERaw name v]
  | QId _ => Ok []
  end.

(* The namespaces, writer.rs:187-197. *)
Definition g_write_namespaces (g : guards) (D : dom) (node : nid) : res (list event) :=
  reading g node (
  if has_tag_name D node (QId E_Svg) then
    reading g node (
    match parent (lk D) node with
    | Some p =>
        reading g p (
        if is_root D p then
          xlink <- g_any_descendant (2 * enough D) g D (fun n => has_attribute D n (QId A_Href)) (traverse node) ;;
          Ok (EAttr (lit "xmlns") (lit "http://www.w3.org/2000/svg") ::
              if (xlink : bool) then [EAttr (lit "xmlns:xlink") (lit "http://www.w3.org/1999/xlink")] else [])
        else Ok [])
    | None => Ok []
    end)
  else Ok []).

(* write_attributes, writer.rs:182-237. *)
Definition g_write_attributes (g : guards) (W : writers) (D : dom) (node : nid) : res (list event) :=
  ns <- g_write_namespaces g D node ;;
  id <- reading g node (if has_id D node then reading g node (Ok [EAttr (lit "id") (id_of D node)]) else Ok []) ;;
  reading g node (
  let attrs := attributes D node in
  let ids := sort_by (fun x => aid_idx (fst x)) (map (fun x => (fst x, a_name (snd x))) (attrs_svg attrs)) in
  svg <- flat_res (g_write_svg_attr g W D attrs) ids ;;
  custom <- flat_res (g_write_custom_attr g W D) attrs ;;
  Ok (ns ++ id ++ svg ++ custom)).

(* The loop body of write_dom, writer.rs:137-170. *)
Definition g_write_edge (g : guards) (W : writers) (D : dom) (e : edge) : res (list event) :=
  match e with
  | Start node =>
      reading g node (
      match node_type D node with
      | NRoot => Ok []
      | NElement =>
          reading g node (
          name <- tag_str (tag_name D node) ;;
          attrs <- g_write_attributes g W D node ;;
          reading g node (
          Ok (EStart name :: attrs ++ if has_tag_name D node (QId E_Text) then [EPreserve true] else [])))
      | NComment => reading g node (Ok [EComment (text_of D node)])
      | NText => reading g node (Ok [EText (text_of D node)])
      end)
  | End node =>
      reading g node (
      let e := if is_element D node then [EEnd] else [] in
      reading g node (
      Ok (e ++ if has_tag_name D node (QId E_Text) then [EPreserve false] else [])))
  end.

(* The loop of write_dom, writer.rs:136-171: next() and the body take turns. *)
Fixpoint g_write_loop (fuel : nat) (g : guards) (W : writers) (D : dom) (it : traverse_it) : res (list event) :=
  match fuel with
  | O => Diverge
  | S f =>
      r <- g_traverse_next g (lk D) it ;;
      match r with
      | (Some e, it') => a <- g_write_edge g W D e ;; b <- g_write_loop f g W D it' ;; Ok (a ++ b)
      | (None, _) => Ok []
      end
  end.

(* write_dom, writer.rs:128-174, from Document::to_string_with_opt, document.rs:99-101. *)
Definition g_write_dom (g : guards) (W : writers) (D : dom) : res (list event) :=
  g_write_loop (2 * enough D) g W D (traverse (droot D)).
