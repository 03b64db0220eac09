(* Model of the node data API of /repo/src/node.rs.

   Simplification: the user holds no Ref/RefMut guard during these calls; guards taken inside the
   functions themselves are modelled where two of them meet.  Guards.v has the calls under guards. *)
From Coq Require Import List Bool PeanoNat NArith.
From Verif Require Import Base Ids Links Tree Data Attrs Slab.
Import ListNotations.

(* Everything reachable from one Document (document.rs:59-62) and the user's node handles: the
   links and the data of all nodes, the number of nodes created so far (the next free handle), the
   root node and the storage. *)
Record dom := mkDom {
  lk    : links;
  dt    : nid -> ndata;
  fresh : nid;
  droot : nid;
  store : slab
}.

Definition with_lk (L : links) (D : dom) : dom := mkDom L (dt D) (fresh D) (droot D) (store D).
Definition with_dt (t : nid -> ndata) (D : dom) : dom := mkDom (lk D) t (fresh D) (droot D) (store D).
Definition with_store (s : slab) (D : dom) : dom := mkDom (lk D) (dt D) (fresh D) (droot D) s.

(* self.borrow_mut(): change the data of one node. *)
Definition modify (n : nid) (f : ndata -> ndata) (D : dom) : dom :=
  with_dt (upd (dt D) n (f (dt D n))) D.

(* Field access: Node::node_type 116-118, id 202-204, tag_name 250-252, attributes 305-307,
   linked_nodes 596-598, text 172-174, storage_key. *)
Definition node_type (D : dom) (n : nid) : ntype := d_type (dt D n).
Definition id_of (D : dom) (n : nid) : str := d_id (dt D n).
Definition tag_name (D : dom) (n : nid) : tagname := d_tag (dt D n).
Definition attributes (D : dom) (n : nid) : list attr := d_attrs (dt D n).
Definition linked_nodes (D : dom) (n : nid) : list nid := d_linked (dt D n).
Definition text_of (D : dom) (n : nid) : str := d_text (dt D n).
Definition storage_key (D : dom) (n : nid) : option nat := d_key (dt D n).

(* Node::is_root, is_element, is_comment, is_text, node.rs:125-154. *)
Definition is_root (D : dom) (n : nid) : bool := ntype_eqb (node_type D n) NRoot.
Definition is_element (D : dom) (n : nid) : bool := ntype_eqb (node_type D n) NElement.
Definition is_comment (D : dom) (n : nid) : bool := ntype_eqb (node_type D n) NComment.
Definition is_text (D : dom) (n : nid) : bool := ntype_eqb (node_type D n) NText.

(* Node::has_parent, node.rs:102-107. *)
Definition has_parent (D : dom) (n : nid) : bool :=
  match parent (lk D) n with
  | Some p => negb (is_root D p)
  | None => false
  end.

(* Node::is_detached, node.rs:161-163. *)
Definition is_detached (D : dom) (n : nid) : bool :=
  match storage_key D n with None => true | Some _ => false end.

(* Node::has_id, node.rs:211-213. *)
Definition has_id (D : dom) (n : nid) : bool :=
  match id_of D n with [] => false | _ => true end.

(* Node::set_text, node.rs:192-195. *)
Definition set_text (n : nid) (s : str) (D : dom) : res dom :=
  if is_element D n then Panic PDebugAssert else Ok (modify n (set_text_field s) D).

(* *node.text_mut() = s, node.rs:183-185. *)
Definition text_mut (n : nid) (s : str) (D : dom) : dom := modify n (set_text_field s) D.

(* Node::set_id, node.rs:222-227. *)
Definition set_id (n : nid) (s : str) (D : dom) : res dom :=
  if is_element D n then Ok (modify n (set_id_field s) D) else Panic PDebugAssert.

(* Node::is_svg_element, node.rs:234-243. *)
Definition is_svg_element (D : dom) (n : nid) : bool :=
  if is_element D n then match tag_name D n with QId _ => true | QName _ => false end else false.

(* Node::tag_id, node.rs:259-264. *)
Definition tag_id (D : dom) (n : nid) : option eid :=
  match tag_name D n with QId id => Some id | QName _ => None end.

(* Node::has_tag_name, node.rs:271-275. *)
Definition has_tag_name (D : dom) (n : nid) (t : tagname) : bool := tag_eqb (tag_name D n) t.

(* A string tag name that is empty, node.rs:291-295 and document.rs:117-121. *)
Definition empty_tag (t : tagname) : bool :=
  match t with QName [] => true | _ => false end.

(* Node::set_tag_name, node.rs:285-298. *)
Definition set_tag_name (n : nid) (t : tagname) (D : dom) : res dom :=
  if negb (is_element D n) then Panic PDebugAssert
  else if empty_tag t then Panic PAssert
  else Ok (modify n (set_tag t) D).

(* Node::has_attribute, node.rs:324-328. *)
Definition has_attribute (D : dom) (n : nid) (name : aname) : bool :=
  attrs_contains (attributes D n) name.

(* Writing to an attribute through Node::attributes_mut, node.rs:314-316. *)
Definition attribute_mut (n : nid) (name : aname) (a : attr) (D : dom) : dom :=
  modify n (fun d => set_attrs (attrs_edit (d_attrs d) name a) d) D.

(* Writing to the list of users through Node::linked_nodes_mut, node.rs:607-609. *)
Definition linked_nodes_mut (n : nid) (l : list nid) (D : dom) : dom :=
  modify n (set_linked l) D.

(* Node::is_used and uses_count, node.rs:618-631. *)
Definition is_used (D : dom) (n : nid) : bool :=
  match linked_nodes D n with [] => false | _ => true end.
Definition uses_count (D : dom) (n : nid) : nat := length (linked_nodes D n).

(* Node::remove_attribute, node.rs:563-587.  self.attributes() at line 571 keeps [self] borrowed
   while the target is borrowed mutably at line 580. *)
Definition remove_attribute (self : nid) (name : aname) (D : dom) : res dom :=
  if negb (has_attribute D self name) then Ok D else
  D <- match attrs_get_value (attributes D self) name with
       | Some v =>
           match link_target v with
           | Some node =>
               match position (fun n => Nat.eqb n self) (linked_nodes D node) with
               | None => Panic PUnwrap
               | Some index =>
                   borrow_mut [self] node
                     (Ok (modify node (fun d => set_linked (remove_at index (d_linked d)) d) D))
               end
           | None => Ok D
           end
       | None => Ok D
       end ;;
  Ok (modify self (fun d => set_attrs (attrs_remove (d_attrs d) name) d) D).

(* error.rs: the two errors of set_attribute_checked. *)
Inductive error := ElementMustHaveAnId | ElementCrosslink.

(* Result<(), Error>. *)
Inductive result := ROk | RErr (e : error).

(* Node::set_simple_attribute, node.rs:479-487. *)
Definition set_simple_attribute (self : nid) (a : attr) (D : dom) : res dom :=
  if is_link_container (a_value a) then Panic PDebugAssert else
  D <- remove_attribute self (a_name a) D ;;
  Ok (modify self (fun d => set_attrs (attrs_insert (d_attrs d) a) d) D).

(* The attribute built at node.rs:513-519. *)
Definition link_attr (name : aname) (node : nid) (fb : option fallback) : attr :=
  if name_has_id name A_Href then mkAttr name (VLink node)
  else if name_has_id name A_Fill || name_has_id name A_Stroke then mkAttr name (VPaint node fb)
  else mkAttr name (VFuncLink node).

(* Node::set_link_attribute, node.rs:489-528. *)
Definition set_link_attribute (self : nid) (name : aname) (node : nid) (fb : option fallback)
  (D : dom) : res (dom * result) :=
  if negb (has_id D node) then Ok (D, RErr ElementMustHaveAnId) else
  if str_eqb (id_of D self) (id_of D node) then Ok (D, RErr ElementCrosslink) else
  if existsb (fun n => Nat.eqb n node) (linked_nodes D self) then Ok (D, RErr ElementCrosslink) else
  D <- remove_attribute self name D ;;
  let D := modify self (fun d => set_attrs (attrs_insert (d_attrs d) (link_attr name node fb)) d) D in
  let D := modify node (fun d => set_linked (d_linked d ++ [self]) d) D in
  Ok (D, ROk).

(* Node::set_attribute_checked, node.rs:452-477. *)
Definition set_attribute_checked (self : nid) (a : attr) (D : dom) : res (dom * result) :=
  if negb (is_element D self) then Panic PDebugAssert else
  match a_value a with
  | VLink iri | VFuncLink iri => set_link_attribute self (a_name a) iri None D
  | VPaint iri fb => set_link_attribute self (a_name a) iri fb D
  | _ => D <- set_simple_attribute self a D ;; Ok (D, ROk)
  end.

(* Node::set_attribute, node.rs:339-343: unwrap of the result. *)
Definition set_attribute (self : nid) (a : attr) (D : dom) : res dom :=
  r <- set_attribute_checked self a D ;;
  match r with
  | (D, ROk) => Ok D
  | (_, RErr _) => Panic PUnwrap
  end.

(* Node::set_attribute_if_none, node.rs:547-554. *)
Definition set_attribute_if_none (self : nid) (a : attr) (D : dom) : res dom :=
  if negb (has_attribute D self (a_name a)) then set_attribute self a D else Ok D.

(* From<(N, Node)> for Attribute, node.rs:31-45. *)
Definition attr_from_node (name : aname) (node : nid) : attr := link_attr name node None.
