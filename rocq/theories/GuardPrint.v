(* Printing a node, and Document::svg_element, while the user holds guards: the functions of Display.v and Doc.v
   with each borrow written out.  The Ref of the printed node lives while it is printed; nothing is borrowed
   mutably here, so it stands in the way of nothing. *)
From Coq Require Import String List Bool PeanoNat NArith.
From Verif Require Import Base Ids Names Links Tree Iter Data Attrs Slab NodeApi Doc Writer Parser Display Guards GuardDoc
  GuardIter GuardWriter.
Import ListNotations.
Open Scope string_scope.
Open Scope list_scope.

(* Display for Attribute, attribute.rs:91-95: the value borrows the node it is a link to. *)
Definition g_display_attr (g : guards) (W : writers) (D : dom) (a : attr) : res str :=
  name <- display_aname (a_name a) ;;
  v <- g_write_value g W D (a_value a) ;;
  Ok (name ++ lit "='" ++ v ++ lit "'").

(* Display for Attributes, attributes.rs:215-233. *)
Fixpoint g_display_loop (g : guards) (W : writers) (D : dom) (l : list attr) (out : str) : res str :=
  match l with
  | [] => Ok out
  | a :: t => s <- g_display_attr g W D a ;; g_display_loop g W D t (out ++ s ++ lit " ")
  end.
Definition g_display_attrs (g : guards) (W : writers) (D : dom) (l : list attr) : res str :=
  match l with
  | [] => Ok []
  | _ => out <- g_display_loop g W D l [] ;; Ok (removelast out)
  end.

(* The users, writer.rs:302-304: node.id() borrows each of them. *)
Fixpoint g_display_users (g : guards) (D : dom) (l : list nid) : res str :=
  match l with
  | [] => Ok []
  | m :: t => reading g m (s <- g_display_users g D t ;; Ok ((lit " '" ++ id_of D m ++ lit "'") ++ s))
  end.

(* write_element_content, writer.rs:283-308. *)
Definition g_element_content (g : guards) (W : writers) (D : dom) (n : nid) (print_linked : bool) : res str :=
  attrs <- g_display_attrs g W D (attributes D n) ;;
  users <- (if print_linked then
              match linked_nodes D n with
              | [] => Ok []
              | l => s <- g_display_users g D l ;; Ok (lit "; linked-nodes:" ++ s)
              end
            else Ok []) ;;
  Ok ((if has_id D n then lit " id='" ++ id_of D n ++ lit "'" else []) ++
      (match attributes D n with [] => [] | _ => lit " " ++ attrs end) ++ users).

(* Display for Node, tree.rs:58-62, and NodeData, writer.rs:268-281. *)
Definition g_display_node (g : guards) (W : writers) (D : dom) (n : nid) : res str :=
  reading g n
  match node_type D n with
  | NRoot => Ok []
  | NElement =>
      tag <- display_tag (tag_name D n) ;;
      c <- g_element_content g W D n false ;;
      Ok (lit "<" ++ tag ++ c ++ lit ">")
  | NComment => Ok (lit "<!--" ++ text_of D n ++ lit "-->")
  | NText => Ok (text_of D n)
  end.
(* Debug for Node, tree.rs:52-56, and NodeData, writer.rs:253-266. *)
Definition g_debug_node (g : guards) (W : writers) (D : dom) (n : nid) : res str :=
  reading g n
  match node_type D n with
  | NRoot => Ok (lit "Root()")
  | NElement =>
      tag <- display_tag (tag_name D n) ;;
      c <- g_element_content g W D n true ;;
      Ok (lit "Element(" ++ tag ++ c ++ lit ")")
  | NComment => Ok (lit "Comment(" ++ text_of D n ++ lit ")")
  | NText => Ok (lit "Text(" ++ text_of D n ++ lit ")")
  end.

(* Document::svg_element, document.rs:195-203, with FilterSvg::svg, node.rs:637-649: next() of children() and
   tag_name() take turns until an svg element is found. *)
Fixpoint g_find_svg (fuel : nat) (g : guards) (D : dom) (it : children_it) : res (option nid) :=
  match fuel with
  | O => Diverge
  | S f =>
      r <- g_children_next g (lk D) it ;;
      match r with
      | (Some n, it') =>
          reading g n
          match tag_name D n with
          | QId id => if eid_eqb id E_Svg then Ok (Some n) else g_find_svg f g D it'
          | QName _ => g_find_svg f g D it'
          end
      | (None, _) => Ok None
      end
  end.
Definition g_svg_element (g : guards) (D : dom) : res (option nid) :=
  it <- g_children g (droot D) (lk D) ;; g_find_svg (enough D) g D it.
