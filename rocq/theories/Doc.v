(* Model of /repo/src/document.rs (everything but parsing and writing). *)
From Coq Require Import List Bool PeanoNat NArith.
From Verif Require Import Base Ids Links Tree Iter Data Attrs Slab NodeApi.
Import ListNotations.

(* Node::new plus storage.insert and storage_key = Some(key): document.rs:80-81, 134-135,
   162-163.  The new node is the next free handle. *)
Definition alloc (d : ndata) (D : dom) : res (nid * dom) :=
  let n := fresh D in
  r <- slab_insert (store D) n ;;
  Ok (n, mkDom (lk D) (upd (dt D) n (set_key (Some (fst r)) d)) (S n) (droot D) (snd r)).

(* The state before any document exists: every handle is unlinked and blank. *)
Definition blank : ndata := new_data NRoot (QName []) [].
Definition pre_dom : dom := mkDom no_links (fun _ => blank) 0 0 slab_new.

(* Document::new, document.rs:68-87. *)
Definition new_document : res dom :=
  r <- alloc (new_data NRoot (QName []) []) pre_dom ;;
  let D := snd r in
  Ok (mkDom (lk D) (dt D) (fresh D) (fst r) (store D)).

(* Document::create_element, document.rs:113-138. *)
Definition create_element (t : tagname) (D : dom) : res (nid * dom) :=
  if empty_tag t then Panic PAssert else alloc (new_data NElement t []) D.

(* Document::create_node, document.rs:149-166. *)
Definition create_node (ty : ntype) (text : str) (D : dom) : res (nid * dom) :=
  if ntype_eqb ty NElement || ntype_eqb ty NRoot then Panic PAssert
  else alloc (new_data ty (QName []) text) D.

(* A `for child in node.children()` loop whose body may change the document. *)
Fixpoint for_children {A} (getL : A -> links) (fuel : nat) (body : nid -> A -> res A)
  (it : children_it) (s : A) : res A :=
  match fuel with
  | O => Diverge
  | S f =>
      match children_next (getL s) it with
      | (Some c, it') => s <- body c s ;; for_children getL f body it' s
      | (None, _) => Ok s
      end
  end.

(* Enough steps for a loop over the existing nodes. *)
Definition enough (D : dom) : nat := S (S (fresh D)).

(* Collecting node.children(). *)
Fixpoint children_list (fuel : nat) (L : links) (it : children_it) : res (list nid) :=
  match fuel with
  | O => Diverge
  | S f =>
      match children_next L it with
      | (Some c, it') => l <- children_list f L it' ;; Ok (c :: l)
      | (None, _) => Ok []
      end
  end.

(* FilterSvg::svg, node.rs:637-649, over a collected iterator. *)
Fixpoint filter_svg (D : dom) (l : list nid) : list (eid * nid) :=
  match l with
  | [] => []
  | n :: t => match tag_name D n with
              | QId id => (id, n) :: filter_svg D t
              | QName _ => filter_svg D t
              end
  end.

(* Document::svg_element, document.rs:195-203 (the iterator is collected first: the loop body has
   no effect). *)
Definition svg_element (D : dom) : res (option nid) :=
  l <- children_list (enough D) (lk D) (children (lk D) (droot D)) ;;
  Ok (option_map snd (find (fun p => eid_eqb (fst p) E_Svg) (filter_svg D l))).

(* for name in ids { node.remove_attribute(name) }, document.rs:253-255 and 275-277. *)
Fixpoint remove_all (self : nid) (names : list aname) (D : dom) : res dom :=
  match names with
  | [] => Ok D
  | x :: t => D <- remove_attribute self x D ;; remove_all self t D
  end.

(* ids of the link attributes with an SVG name, document.rs:243-251. *)
Definition svg_link_names (l : list attr) : list aname :=
  map (fun p => a_name (snd p)) (filter (fun p => is_link_container (a_value (snd p))) (attrs_svg l)).

(* ids of the link attributes with an SVG name that point to [node], document.rs:262-273. *)
Definition svg_link_names_to (node : nid) (l : list attr) : list aname :=
  map (fun p => a_name (snd p))
      (filter (fun p => match link_target (a_value (snd p)) with
                        | Some link => Nat.eqb link node
                        | None => false
                        end) (attrs_svg l)).

(* The loop over linked nodes, document.rs:259-278. *)
Fixpoint unlink_users (node : nid) (users : list nid) (D : dom) : res dom :=
  match users with
  | [] => Ok D
  | u :: t =>
      D <- remove_all u (svg_link_names_to node (attributes D u)) D ;;
      unlink_users node t D
  end.

(* Document::_remove up to the loop over the children, document.rs:241-278. *)
Definition remove_links (node : nid) (D : dom) : res dom :=
  D <- remove_all node (svg_link_names (attributes D node)) D ;;
  unlink_users node (linked_nodes D node) D.

(* Document::_remove, after the loop over the children, document.rs:286-294. *)
Definition remove_finish (node : nid) (D : dom) : res dom :=
  L <- detach [] node (lk D) ;;
  let D := with_lk L D in
  let key := storage_key D node in
  let D := modify node (set_key None) D in
  match key with
  | Some k => r <- slab_remove (store D) k ;; Ok (with_store (snd r) D)
  | None => Ok D
  end.

(* Document::_remove, document.rs:240-295. *)
Fixpoint remove_rec (fuel : nat) (node : nid) (D : dom) : res dom :=
  match fuel with
  | O => Diverge
  | S f =>
      D <- remove_links node D ;;
      D <- for_children lk f (remove_rec f) (children (lk D) node) D ;;
      remove_finish node D
  end.

(* Document::remove_node, document.rs:235-238. *)
Definition remove_node (node : nid) (D : dom) : res dom := remove_rec (enough D) node D.

(* Document::_drain, document.rs:311-328.  The predicate may look at the whole document.  The
   loop state is the node to look at next. *)
Fixpoint drain_loop (fuel : nat) (f : dom -> nid -> bool) (node : option nid) (s : dom * nat)
  : res (dom * nat) :=
  match fuel with
  | O => Diverge
  | S fl =>
      match node with
      | None => Ok s
      | Some n =>
          let D := fst s in
          if f D n then
            let nx := next_sibling (lk D) n in
            D <- remove_node n D ;;
            drain_loop fl f nx (D, S (snd s))
          else
            s <- (if has_children (lk D) n
                  then drain_loop fl f (first_child (lk D) n) s
                  else Ok s) ;;
            drain_loop fl f (next_sibling (lk (fst s)) n) s
      end
  end.

(* Document::drain, document.rs:303-309. *)
Definition drain (root : nid) (f : dom -> nid -> bool) (D : dom) : res (dom * nat) :=
  drain_loop (S (enough D)) f (first_child (lk D) root) (D, 0).

(* for attr in node.attributes().iter() { elem.set_attribute(attr.clone()) }, document.rs:338-340,
   over the list borrowed before the loop.  node.attributes() keeps [src] borrowed: a link from
   src to itself would be a second borrow. *)
Fixpoint copy_attrs (src elem : nid) (l : list attr) (D : dom) : res dom :=
  match l with
  | [] => Ok D
  | a :: t =>
      D <- match link_target (a_value a) with
           | Some tgt => if Nat.eqb tgt src && has_id D tgt then Panic PBorrow
                         else set_attribute elem a D
           | None => set_attribute elem a D
           end ;;
      copy_attrs src elem t D
  end.

(* Document::copy_node, document.rs:333-348. *)
Definition copy_node (node : nid) (D : dom) : res (nid * dom) :=
  match node_type D node with
  | NElement =>
      r <- create_element (tag_name D node) D ;;
      let elem := fst r in
      D <- copy_attrs node elem (attributes D node) (snd r) ;;
      Ok (elem, D)
  | ty => create_node ty (text_of D node) D
  end.

(* Document::_make_deep_copy, document.rs:359-368. *)
Fixpoint make_deep_copy (fuel : nat) (parent_ node : nid) (D : dom) : res dom :=
  match fuel with
  | O => Diverge
  | S f =>
      for_children lk f
        (fun child D =>
           r <- copy_node child D ;;
           let new_node := fst r in
           L <- append [] parent_ new_node (lk (snd r)) ;;
           let D := with_lk L (snd r) in
           if has_children (lk D) child then make_deep_copy f new_node child D else Ok D)
        (children (lk D) node) D
  end.

(* Document::copy_node_deep, document.rs:353-357. *)
Definition copy_node_deep (node : nid) (D : dom) : res (nid * dom) :=
  let fuel := enough D in
  r <- copy_node node D ;;
  D <- make_deep_copy fuel (fst r) node (snd r) ;;
  Ok (fst r, D).

(* Drop for Document, document.rs:371-379: the links and data left for handles the user (or a
   reference cycle) still holds. *)
Fixpoint drop_loop (l : list nid) (D : dom) : res dom :=
  match l with
  | [] => Ok D
  | n :: t =>
      let D := modify n (set_attrs (attrs_clear (attributes D n))) D in
      let D := modify n (set_linked []) D in
      L <- detach [] n (lk D) ;;
      drop_loop t (with_lk L D)
  end.
Definition drop_document (D : dom) : res dom := drop_loop (slab_iter (store D)) D.
