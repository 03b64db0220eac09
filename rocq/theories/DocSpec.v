(* Specification of the document operations in terms of what the API shows. *)
From Coq Require Import List Bool PeanoNat NArith.
From Verif Require Import Base Ids Links Tree Data Attrs NodeApi AttrSpec Doc ForestSpec History.
From Verif Require TreeSpec.
Import ListNotations.

(* A link attribute with an SVG name. *)
Definition svg_link (a : attr) : bool :=
  match a_name a with QId _ => is_link_container (a_value a) | QName _ => false end.

(* The attribute [a] of [x] links from or into the set [S]. *)
Definition cut (S : list nid) (x : nid) (a : attr) : bool :=
  svg_link a && (mem x S || match link_target (a_value a) with Some t => mem t S | None => false end).

(* The effect of removing the nodes [S] from the document, as far as data is concerned: removed
   nodes are no longer stored, links from and to them that have an SVG name are gone, users outside
   of [S] keep their order, and nothing else changes. *)
Record removed (S : list nid) (D D' : dom) : Prop := {
  rv_fresh : fresh D' = fresh D;
  rv_root  : droot D' = droot D;
  rv_type  : forall n, node_type D' n = node_type D n;
  rv_tag   : forall n, tag_name D' n = tag_name D n;
  rv_id    : forall n, id_of D' n = id_of D n;
  rv_text  : forall n, text_of D' n = text_of D n;
  rv_key   : forall n, storage_key D' n = if mem n S then None else storage_key D n;
  rv_attrs : forall x, attributes D' x = filter (fun a => negb (cut S x a)) (attributes D x);
  rv_linked : forall p b, (forall s, In s S -> p s = false) -> ~ In b S ->
                filter p (linked_nodes D' b) = filter p (linked_nodes D b);
  rv_lroot : forall n, l_root (lk D') n = l_root (lk D) n
}.


(* drain: the topmost nodes of a tree that satisfy [p], with their subtrees. *)
Fixpoint maximal (p : nid -> bool) (t : tree) : list tree :=
  match t with T n ts => if p n then [t] else flat_map (maximal p) ts end.

(* What is left of a tree when all matching nodes below its root are taken out. *)
Fixpoint drained (p : nid -> bool) (t : tree) : tree :=
  match t with
  | T n ts => T n (flat_map (fun c => if p (t_node c) then [] else [drained p c]) ts)
  end.

(* The answer of the predicate for the remaining nodes does not depend on which nodes were
   removed before. *)
Definition stable (f : dom -> nid -> bool) (D : dom) : Prop :=
  forall S D', removed S D D' -> forall x, ~ In x S -> f D' x = f D x.

(* [m] in [D'] is a copy of [n] in [D]: everything but the id (and the text of an element). *)
Record copy_of (D : dom) (n : nid) (D' : dom) (m : nid) : Prop := {
  co_type  : node_type D' m = node_type D n;
  co_tag   : tag_name D' m = tag_name D n;
  co_attrs : attributes D' m = attributes D n;
  co_text  : text_of D' m = if ntype_eqb (node_type D n) NElement then [] else text_of D n;
  co_id    : id_of D' m = [];
  co_users : linked_nodes D' m = [];
  co_key   : storage_key D' m <> None
}.

(* Two trees of the same shape whose nodes are copies. *)
Inductive copied_tree (D : dom) (D' : dom) : tree -> tree -> Prop :=
| copied_node : forall n ts m us,
    copy_of D n D' m -> Forall2 (copied_tree D D') ts us -> copied_tree D D' (T n ts) (T m us).

(* What a copy does to the nodes that existed before: link targets get the new node as user, once per
   copied link. *)
Record copy_effect (D : dom) (n m : nid) (D' : dom) : Prop := {
  ce_root   : droot D' = droot D;
  ce_fresh  : fresh D' = S (fresh D);
  ce_links  : lk D' = lk D;
  ce_key    : forall x, exists_node D x -> storage_key D' x = storage_key D x;
  ce_type   : forall x, exists_node D x -> node_type D' x = node_type D x;
  ce_tag    : forall x, exists_node D x -> tag_name D' x = tag_name D x;
  ce_id     : forall x, exists_node D x -> id_of D' x = id_of D x;
  ce_text   : forall x, exists_node D x -> text_of D' x = text_of D x;
  ce_attr   : forall x, exists_node D x -> attributes D' x = attributes D x;
  ce_linked : forall x, exists_node D x -> linked_nodes D' x = linked_nodes D x ++ repeat m (uses D n x)
}.

(* The same for a deep copy of the nodes [S]; the new users are new nodes. *)
Record grown (S : list nid) (D D' : dom) : Prop := {
  gr_root : droot D' = droot D;
  gr_fresh : fresh D <= fresh D';
  gr_key  : forall x, x < fresh D -> storage_key D' x = storage_key D x;
  gr_type : forall x, x < fresh D -> node_type D' x = node_type D x;
  gr_tag  : forall x, x < fresh D -> tag_name D' x = tag_name D x;
  gr_id   : forall x, x < fresh D -> id_of D' x = id_of D x;
  gr_text : forall x, x < fresh D -> text_of D' x = text_of D x;
  gr_attr : forall x, x < fresh D -> attributes D' x = attributes D x;
  gr_link : forall x, x < fresh D -> exists us, linked_nodes D' x = linked_nodes D x ++ us /\
      Forall (fun u => fresh D <= u < fresh D') us /\
      (us <> [] -> exists n a, In n S /\ In a (attributes D n) /\ link_target (a_value a) = Some x)
}.

(* Nodes that can be copied: not the root node, and all link targets have an id. *)
Definition targets_named (D : dom) (n : nid) : Prop :=
  forall a t, In a (attributes D n) -> link_target (a_value a) = Some t -> id_of D t <> [].
Definition copyable (D : dom) (x : nid) : Prop := node_type D x <> NRoot /\ targets_named D x.

(* The forest after all nodes of [S], which is closed under children, were taken out one by one. *)
Definition left_of (S l : list nid) : list nid := filter (fun x => negb (mem x S)) l.
Record pruned (S : list nid) (F F' : forest) : Prop := {
  pr_in_parent   : forall x, In x S -> parent_of F' x = None;
  pr_in_children : forall x, In x S -> children_of F' x = [];
  pr_in_siblings : forall x, In x S -> siblings_of F' x = [x];
  pr_parent      : forall x, ~ In x S -> parent_of F' x = parent_of F x;
  pr_children    : forall x, ~ In x S -> children_of F' x = left_of S (children_of F x);
  pr_siblings    : forall x, ~ In x S -> siblings_of F' x = left_of S (siblings_of F x)
}.

(* No link from or to a node of [S] is left, other links and the users outside of [S] stay in order. *)
Definition links_into (S : list nid) (a : attr) : bool :=
  match link_target (a_value a) with Some t => mem t S | None => false end.
Record unlinked_all (S : list nid) (D D' : dom) : Prop := {
  ul_attrs     : forall x, ~ In x S -> attributes D' x = filter (fun a => negb (links_into S a)) (attributes D x);
  ul_in_attrs  : forall x, In x S ->
                   attributes D' x = filter (fun a => negb (is_link_container (a_value a))) (attributes D x);
  ul_linked    : forall x, ~ In x S -> linked_nodes D' x = left_of S (linked_nodes D x);
  ul_in_linked : forall x, In x S -> linked_nodes D' x = []
}.

(* Reference counts: a node keeps alive its first child, its next sibling, the nodes its attributes
   link to and the nodes it lists as users.  Parent, last child, previous sibling and root are weak
   references (tree.rs:29-37, attribute_value.rs:33-43, node.rs:595-609). *)
Definition strong (D : dom) (a b : nid) : Prop :=
  first_child (lk D) a = Some b \/ next_sibling (lk D) a = Some b \/
  (exists x, In x (attributes D a) /\ link_target (a_value x) = Some b) \/
  In b (linked_nodes D a).

(* A chain of one or more strong references. *)
Inductive keeps_alive (D : dom) : nid -> nid -> Prop :=
| ka_one  : forall a b, strong D a b -> keeps_alive D a b
| ka_more : forall a b c, strong D a b -> keeps_alive D b c -> keeps_alive D a c.

(* A node without links in either direction. *)
Definition unlinked (D : dom) (n : nid) : Prop :=
  (forall a, In a (attributes D n) -> link_target (a_value a) = None) /\ linked_nodes D n = [].

(* The nodes that a call takes out of the document. *)
Inductive takes (D : dom) : op -> list nid -> Prop :=
| takes_remove : forall F t, TreeSpec.shows (lk D) F -> tree_at F t ->
    takes D (ORemoveNode (t_node t)) (preorder t)
| takes_drain : forall F t f, TreeSpec.shows (lk D) F -> tree_at F t -> stable f D ->
    takes D (ODrain (t_node t) f) (flat_map preorder (flat_map (maximal (f D)) (t_kids t)))
| takes_nothing : forall o,
    match o with ORemoveNode _ | ODrain _ _ => False | _ => True end -> takes D o [].

(* Histories with the list of all nodes removed so far. *)
Inductive history : list nid -> dom -> Prop :=
| hist_new : forall D, new_document = Ok D -> history [] D
| hist_step : forall R D o S D', history R D -> legal o D -> no_cycle_made o D ->
    takes D o S -> step o D = Ok D' -> history (R ++ S) D'.
