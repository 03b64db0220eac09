(* Model of the Display and Debug implementations: /repo/src/name.rs:51-69, /repo/src/attribute.rs:91-95,
   /repo/src/attributes.rs:209-233, /repo/src/attribute_value.rs:314-318, /repo/src/writer.rs:253-308,
   /repo/src/error.rs.

   Writing to the formatter does not fail; the result is the string that is written. *)
From Coq Require Import String List Bool NArith.
From Verif Require Import Base Ids Names Data Attrs NodeApi Writer Parser.
Import ListNotations.
Open Scope string_scope.
Open Scope list_scope.

(* Display for QName<AttributeId>, name.rs:51-60. *)
Definition display_aname (q : aname) : res str :=
  match q with
  | QId A_Href => Ok (lit "xlink:href")
  | QId A_Space => Ok (lit "xml:space")
  | QId id => attribute_as_str id
  | QName name => Ok name
  end.
(* Display for QName<ElementId>, name.rs:62-69. *)
Definition display_tag (q : tagname) : res str :=
  match q with
  | QId id => element_as_str id
  | QName name => Ok name
  end.

(* Display for AttributeValue, attribute_value.rs:314-318: [W] is the writer with the default options. *)
Definition display_value (W : writers) (D : dom) (v : avalue) : str := write_value W D v.

(* Display for Attribute, attribute.rs:91-95. *)
Definition display_attr (W : writers) (D : dom) (a : attr) : res str :=
  name <- display_aname (a_name a) ;;
  Ok (name ++ lit "='" ++ display_value W D (a_value a) ++ lit "'").

(* Display for Attributes, attributes.rs:215-233: every attribute is followed by a space, the last space is
   removed. *)
Fixpoint display_loop (W : writers) (D : dom) (l : list attr) (out : str) : res str :=
  match l with
  | [] => Ok out
  | a :: t => s <- display_attr W D a ;; display_loop W D t (out ++ s ++ lit " ")
  end.
Definition display_attrs (W : writers) (D : dom) (l : list attr) : res str :=
  match l with
  | [] => Ok []
  | _ => out <- display_loop W D l [] ;; Ok (removelast out)
  end.
(* Debug for Attributes, attributes.rs:209-213. *)
Definition debug_attrs (W : writers) (D : dom) (l : list attr) : res str :=
  s <- display_attrs W D l ;; Ok (lit "Attributes(" ++ s ++ lit ")").

(* write_element_content, writer.rs:283-308; space_before_attrs is always true. *)
Definition element_content (W : writers) (D : dom) (n : nid) (print_linked : bool) : res str :=
  attrs <- display_attrs W D (attributes D n) ;;
  Ok ((if has_id D n then lit " id='" ++ id_of D n ++ lit "'" else []) ++
      (match attributes D n with [] => [] | _ => lit " " ++ attrs end) ++
      (if print_linked then
         match linked_nodes D n with
         | [] => []
         | l => lit "; linked-nodes:" ++ flat_map (fun m => lit " '" ++ id_of D m ++ lit "'") l
         end
       else [])).

(* Display for NodeData, writer.rs:268-281, and for Node, tree.rs:58-62. *)
Definition display_node (W : writers) (D : dom) (n : nid) : res str :=
  match node_type D n with
  | NRoot => Ok []
  | NElement =>
      tag <- display_tag (tag_name D n) ;;
      c <- element_content W D n false ;;
      Ok (lit "<" ++ tag ++ c ++ lit ">")
  | NComment => Ok (lit "<!--" ++ text_of D n ++ lit "-->")
  | NText => Ok (text_of D n)
  end.
(* Debug for NodeData, writer.rs:253-266, and for Node, tree.rs:52-56. *)
Definition debug_node (W : writers) (D : dom) (n : nid) : res str :=
  match node_type D n with
  | NRoot => Ok (lit "Root()")
  | NElement =>
      tag <- display_tag (tag_name D n) ;;
      c <- element_content W D n true ;;
      Ok (lit "Element(" ++ tag ++ c ++ lit ")")
  | NComment => Ok (lit "Comment(" ++ text_of D n ++ lit ")")
  | NText => Ok (lit "Text(" ++ text_of D n ++ lit ")")
  end.
