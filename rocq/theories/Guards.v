(* Calls while the user holds guards: Ref (from text(), id(), tag_name(), attributes(), linked_nodes()) and
   RefMut (from text_mut(), attributes_mut(), linked_nodes_mut()).  std::cell::RefCell: borrow() panics
   while a RefMut lives, borrow_mut() panics while any guard lives.

   The functions here are those of NodeApi.v with each borrow written out. *)
From Coq Require Import List Bool PeanoNat NArith.
From Verif Require Import Base Ids Links Tree Data Attrs Slab NodeApi Doc.
Import ListNotations.

Record guards := mkGuards { g_ref : list nid; g_mut : list nid }.
Definition no_guards : guards := mkGuards [] [].
(* All nodes with a guard: the list the functions of Tree.v take.  Those only use borrow_mut(). *)
Definition all_guards (g : guards) : list nid := g_mut g ++ g_ref g.
Definition add_ref (n : nid) (g : guards) : guards := mkGuards (n :: g_ref g) (g_mut g).
Definition add_mut (n : nid) (g : guards) : guards := mkGuards (g_ref g) (n :: g_mut g).

(* RefCell::borrow and RefCell::borrow_mut. *)
Definition reading {A} (g : guards) (n : nid) (k : res A) : res A :=
  if mem n (g_mut g) then Panic PBorrow else k.
Definition writing {A} (g : guards) (n : nid) (k : res A) : res A :=
  if mem n (all_guards g) then Panic PBorrow else k.

(* Node::text 172-174, id 202-204, tag_name 250-252, attributes 305-307, linked_nodes 596-598 (node.rs):
   the guards after the call.  The other getters drop their guard at once. *)
Definition take_ref (n : nid) (g : guards) : res guards := reading g n (Ok (add_ref n g)).
(* Node::text_mut 183-185, attributes_mut 314-316, linked_nodes_mut 607-609. *)
Definition take_mut (n : nid) (g : guards) : res guards := writing g n (Ok (add_mut n g)).

(* Node::detach, append, prepend, insert_after, insert_before, tree.rs:229-381. *)
Definition g_detach (g : guards) (n : nid) (D : dom) : res dom :=
  L <- detach (all_guards g) n (lk D) ;; Ok (with_lk L D).
Definition g_append (g : guards) (p n : nid) (D : dom) : res dom :=
  L <- append (all_guards g) p n (lk D) ;; Ok (with_lk L D).
Definition g_prepend (g : guards) (p n : nid) (D : dom) : res dom :=
  L <- prepend (all_guards g) p n (lk D) ;; Ok (with_lk L D).
Definition g_insert_after (g : guards) (a n : nid) (D : dom) : res dom :=
  L <- insert_after (all_guards g) a n (lk D) ;; Ok (with_lk L D).
Definition g_insert_before (g : guards) (a n : nid) (D : dom) : res dom :=
  L <- insert_before (all_guards g) a n (lk D) ;; Ok (with_lk L D).

(* Node::set_text, node.rs:192-195. *)
Definition g_set_text (g : guards) (n : nid) (s : str) (D : dom) : res dom :=
  reading g n (if is_element D n then Panic PDebugAssert else
  writing g n (Ok (modify n (set_text_field s) D))).
(* Node::set_id, node.rs:222-227. *)
Definition g_set_id (g : guards) (n : nid) (s : str) (D : dom) : res dom :=
  reading g n (if is_element D n then writing g n (Ok (modify n (set_id_field s) D)) else Panic PDebugAssert).
(* Node::set_tag_name, node.rs:285-298. *)
Definition g_set_tag_name (g : guards) (n : nid) (t : tagname) (D : dom) : res dom :=
  reading g n (if negb (is_element D n) then Panic PDebugAssert
  else if empty_tag t then Panic PAssert
  else writing g n (Ok (modify n (set_tag t) D))).

(* Node::remove_attribute, node.rs:563-587.  self.attributes() at line 571 is one more guard of [self]
   until line 584. *)
Definition g_remove_attribute (g : guards) (self : nid) (name : aname) (D : dom) : res dom :=
  reading g self (
  if negb (has_attribute D self name) then Ok D else
  D <- match attrs_get_value (attributes D self) name with
       | Some v =>
           match link_target v with
           | Some node =>
               reading g node (
               match position (fun n => Nat.eqb n self) (linked_nodes D node) with
               | None => Panic PUnwrap
               | Some index =>
                   writing (add_ref self g) node
                     (Ok (modify node (fun d => set_linked (remove_at index (d_linked d)) d) D))
               end)
           | None => Ok D
           end
       | None => Ok D
       end ;;
  writing g self (Ok (modify self (fun d => set_attrs (attrs_remove (d_attrs d) name) d) D))).

(* Node::set_simple_attribute, node.rs:479-487. *)
Definition g_set_simple_attribute (g : guards) (self : nid) (a : attr) (D : dom) : res dom :=
  if is_link_container (a_value a) then Panic PDebugAssert else
  D <- g_remove_attribute g self (a_name a) D ;;
  writing g self (Ok (modify self (fun d => set_attrs (attrs_insert (d_attrs d) a) d) D)).

(* Node::set_link_attribute, node.rs:489-528. *)
Definition g_set_link_attribute (g : guards) (self : nid) (name : aname) (node : nid) (fb : option fallback)
  (D : dom) : res (dom * result) :=
  reading g node (
  if negb (has_id D node) then Ok (D, RErr ElementMustHaveAnId) else
  reading g self (
  if str_eqb (id_of D self) (id_of D node) then Ok (D, RErr ElementCrosslink) else
  if existsb (fun n => Nat.eqb n node) (linked_nodes D self) then Ok (D, RErr ElementCrosslink) else
  D <- g_remove_attribute g self name D ;;
  writing g self (
  let D := modify self (fun d => set_attrs (attrs_insert (d_attrs d) (link_attr name node fb)) d) D in
  writing g node (
  let D := modify node (fun d => set_linked (d_linked d ++ [self]) d) D in
  Ok (D, ROk))))).

(* Node::set_attribute_checked, node.rs:452-477. *)
Definition g_set_attribute_checked (g : guards) (self : nid) (a : attr) (D : dom) : res (dom * result) :=
  reading g self (
  if negb (is_element D self) then Panic PDebugAssert else
  match a_value a with
  | VLink iri | VFuncLink iri => g_set_link_attribute g self (a_name a) iri None D
  | VPaint iri fb => g_set_link_attribute g self (a_name a) iri fb D
  | _ => D <- g_set_simple_attribute g self a D ;; Ok (D, ROk)
  end).

(* Node::set_attribute, node.rs:339-343. *)
Definition g_set_attribute (g : guards) (self : nid) (a : attr) (D : dom) : res dom :=
  r <- g_set_attribute_checked g self a D ;;
  match r with
  | (D, ROk) => Ok D
  | (_, RErr _) => Panic PUnwrap
  end.

(* Node::set_attribute_if_none, node.rs:547-554. *)
Definition g_set_attribute_if_none (g : guards) (self : nid) (a : attr) (D : dom) : res dom :=
  reading g self (if negb (has_attribute D self (a_name a)) then g_set_attribute g self a D else Ok D).

(* The loop of Document::copy_node, document.rs:338-340: node.attributes() lives during the loop. *)
Fixpoint g_copy_attrs (g : guards) (elem : nid) (l : list attr) (D : dom) : res dom :=
  match l with
  | [] => Ok D
  | a :: t => D <- g_set_attribute g elem a D ;; g_copy_attrs g elem t D
  end.

(* Document::copy_node, document.rs:333-348. *)
Definition g_copy_node (g : guards) (node : nid) (D : dom) : res (nid * dom) :=
  reading g node (
  match node_type D node with
  | NElement =>
      r <- create_element (tag_name D node) D ;;
      let elem := fst r in
      D <- g_copy_attrs (add_ref node g) elem (attributes D node) (snd r) ;;
      Ok (elem, D)
  | ty => create_node ty (text_of D node) D
  end).
