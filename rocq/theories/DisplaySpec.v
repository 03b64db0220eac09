(* Specification of the printed form of nodes and attributes. *)
From Coq Require Import String List Bool NArith.
From Verif Require Import Base Ids Names Data Attrs NodeApi Writer WriterSpec.
Import ListNotations.
Open Scope string_scope.
Open Scope list_scope.

(* name='value', with the name and the value as in the file. *)
Definition pair_of (W : writers) (D : dom) (a : attr) (x : str * str) : Prop :=
  attr_label (a_name a) (fst x) /\ snd x = value_str W D (a_value a).
Definition quoted (x : str * str) : str := fst x ++ lit "='" ++ snd x ++ lit "'".

(* Texts with a separator between them. *)
Fixpoint joined (sep : str) (l : list str) : str :=
  match l with
  | [] => []
  | [s] => s
  | s :: t => s ++ sep ++ joined sep t
  end.

(* The id, unless it is empty, and the attributes in the order in which they are stored. *)
Definition pairs_of (W : writers) (D : dom) (n : nid) (l : list (str * str)) : Prop :=
  exists attrs, Forall2 (pair_of W D) (attributes D n) attrs /\
    l = match id_of D n with [] => attrs | id => (lit "id", id) :: attrs end.

(* A start tag, and the inside of the debug form. *)
Definition tag_text (name : str) (l : list (str * str)) : str := joined (lit " ") (name :: map quoted l).

(* The references to the node that the debug form lists. *)
Definition references (ids : list str) : str :=
  match ids with
  | [] => []
  | _ => lit "; linked-nodes: " ++ joined (lit " ") (map (fun id => lit "'" ++ id ++ lit "'") ids)
  end.

(* The printed form. *)
Inductive printed (W : writers) (D : dom) (n : nid) : str -> Prop :=
| pn_root : node_type D n = NRoot -> printed W D n []
| pn_element : forall name l, node_type D n = NElement -> tag_label (tag_name D n) name -> pairs_of W D n l ->
    printed W D n (lit "<" ++ tag_text name l ++ lit ">")
| pn_comment : node_type D n = NComment -> printed W D n (lit "<!--" ++ text_of D n ++ lit "-->")
| pn_text : node_type D n = NText -> printed W D n (text_of D n).
Inductive debugged (W : writers) (D : dom) (n : nid) : str -> Prop :=
| db_root : node_type D n = NRoot -> debugged W D n (lit "Root()")
| db_element : forall name l, node_type D n = NElement -> tag_label (tag_name D n) name -> pairs_of W D n l ->
    debugged W D n (lit "Element(" ++ tag_text name l ++ references (map (id_of D) (linked_nodes D n)) ++ lit ")")
| db_comment : node_type D n = NComment -> debugged W D n (lit "Comment(" ++ text_of D n ++ lit ")")
| db_text : node_type D n = NText -> debugged W D n (lit "Text(" ++ text_of D n ++ lit ")").
