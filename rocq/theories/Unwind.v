(* The state a panic leaves behind, for a user who catches it (std::panic::catch_unwind).  RefCell is not
   poisoned by a panic: all writes made before it stay, the guards of the call are dropped.

   The functions here are those of Tree.v, NodeApi.v, Guards.v and Doc.v, with the state at the end of the
   call also when it panics.
   Simplification: nodes are not freed when the references that unwinding drops were the last ones. *)
From Coq Require Import List Bool PeanoNat NArith.
From Verif Require Import Base Ids Links Tree Data Attrs Slab NodeApi Doc Guards.
Import ListNotations.

(* How a call ends. *)
Inductive fate (A : Type) := Gives (a : A) | Panics (p : panic).
Arguments Gives {A} a.
Arguments Panics {A} p.

(* The state at the end and how the call ended. *)
Definition seq_ {S A B} (o : S * fate A) (k : A -> S -> S * fate B) : S * fate B :=
  match o with
  | (s, Gives a) => k a s
  | (s, Panics p) => (s, Panics p)
  end.
Notation "s <~ o ;; k" := (seq_ o (fun _ s => k)) (at level 60, o at next level, right associativity).
Notation "a & s <~ o ;; k" := (seq_ o (fun a s => k)) (at level 60, s at next level, o at next level, right associativity).

(* What is seen by a user who does not catch the panic. *)
Definition uncaught {S A} (o : S * fate A) : res (S * A) :=
  match o with
  | (s, Gives a) => Ok (s, a)
  | (_, Panics p) => Panic p
  end.
Definition uncaught_ {S} (o : S * fate unit) : res S :=
  match o with
  | (s, Gives _) => Ok s
  | (_, Panics p) => Panic p
  end.

(* RefCell::borrow_mut while the nodes in [G] are borrowed. *)
Definition u_borrow_mut {S A} (G : list nid) (n : nid) (s : S) (k : S * fate A) : S * fate A :=
  if mem n G then (s, Panics PBorrow) else k.

(* NodeData::detach, tree.rs:386-412. *)
Definition u_detach_data (G : list nid) (n : nid) (L : links) : links * fate unit :=
  let parent_weak := l_parent L n in
  let previous_weak := l_prev L n in
  let next_strong := l_next L n in
  let L := set_next n None (set_prev n None (set_parent n None L)) in
  L <~ match next_strong with
            | Some nx => u_borrow_mut G nx L (set_prev nx previous_weak L, Gives tt)
            | None =>
                match parent_weak with
                | Some p => u_borrow_mut G p L (set_last p previous_weak L, Gives tt)
                | None => (L, Gives tt)
                end
            end ;;
  match previous_weak with
  | Some pv => u_borrow_mut G pv L (set_next pv next_strong L, Gives tt)
  | None =>
      match parent_weak with
      | Some p => u_borrow_mut G p L (set_first p next_strong L, Gives tt)
      | None => (L, Gives tt)
      end
  end.

(* Node::detach, tree.rs:229-231. *)
Definition u_detach (G : list nid) (n : nid) (L : links) : links * fate unit :=
  u_borrow_mut G n L (u_detach_data (n :: G) n L).

(* Node::append, tree.rs:238-266. *)
Definition u_append (G : list nid) (self new_child : nid) (L : links) : links * fate unit :=
  if Nat.eqb self new_child then (L, Panics PAssert) else
  u_borrow_mut G self L (
  u_borrow_mut (self :: G) new_child L (
  L <~ u_detach_data (new_child :: self :: G) new_child L ;;
  let L := set_root new_child (root_or_self L self) L in
  let L := set_parent new_child (Some self) L in
  let last_child_opt := l_last L self in
  let L := set_last self None L in
  let L := match last_child_opt with
           | Some lc => set_prev new_child (Some lc) L
           | None => L
           end in
  let L := set_last self (Some new_child) L in
  match last_child_opt with
  | Some lc =>
      u_borrow_mut (self :: G) lc L (
      match l_next L lc with
      | Some _ => (L, Panics PDebugAssert)
      | None => (set_next lc (Some new_child) L, Gives tt)
      end)
  | None =>
      match l_first L self with
      | Some _ => (L, Panics PDebugAssert)
      | None => (set_first self (Some new_child) L, Gives tt)
      end
  end)).

(* Node::prepend, tree.rs:273-298. *)
Definition u_prepend (G : list nid) (self new_child : nid) (L : links) : links * fate unit :=
  if Nat.eqb self new_child then (L, Panics PAssert) else
  u_borrow_mut G self L (
  u_borrow_mut (self :: G) new_child L (
  L <~ u_detach_data (new_child :: self :: G) new_child L ;;
  let L := set_root new_child (root_or_self L self) L in
  let L := set_parent new_child (Some self) L in
  let first_child_opt := l_first L self in
  let L := set_first self None L in
  L <~ match first_child_opt with
            | Some fc =>
                u_borrow_mut (new_child :: self :: G) fc L (
                match l_prev L fc with
                | Some _ => (L, Panics PDebugAssert)
                | None =>
                    let L := set_prev fc (Some new_child) L in
                    (set_next new_child (Some fc) L, Gives tt)
                end)
            | None =>
                match l_first L self with
                | Some _ => (L, Panics PDebugAssert)
                | None => (set_last self (Some new_child) L, Gives tt)
                end
            end ;;
  (set_first self (Some new_child) L, Gives tt))).

(* Node::insert_after, tree.rs:305-338. *)
Definition u_insert_after (G : list nid) (self new_sibling : nid) (L : links) : links * fate unit :=
  if Nat.eqb self new_sibling then (L, Panics PAssert) else
  u_borrow_mut G self L (
  u_borrow_mut (self :: G) new_sibling L (
  L <~ u_detach_data (new_sibling :: self :: G) new_sibling L ;;
  let L := set_root new_sibling (l_root L self) L in
  let L := set_parent new_sibling (l_parent L self) L in
  let L := set_prev new_sibling (Some self) L in
  let next_opt := l_next L self in
  let L := set_next self None L in
  L <~ match next_opt with
            | Some nx =>
                u_borrow_mut (new_sibling :: self :: G) nx L (
                match l_prev L nx with
                | None => (L, Panics PDebugAssert)
                | Some w =>
                    if Nat.eqb w self then
                      let L := set_prev nx (Some new_sibling) L in
                      (set_next new_sibling (Some nx) L, Gives tt)
                    else (L, Panics PDebugAssert)
                end)
            | None =>
                match l_parent L self with
                | Some p =>
                    u_borrow_mut (new_sibling :: self :: G) p L
                      (set_last p (Some new_sibling) L, Gives tt)
                | None => (L, Gives tt)
                end
            end ;;
  (set_next self (Some new_sibling) L, Gives tt))).

(* Node::insert_before, tree.rs:345-381. *)
Definition u_insert_before (G : list nid) (self new_sibling : nid) (L : links) : links * fate unit :=
  if Nat.eqb self new_sibling then (L, Panics PAssert) else
  u_borrow_mut G self L (
  u_borrow_mut (self :: G) new_sibling L (
  L <~ u_detach_data (new_sibling :: self :: G) new_sibling L ;;
  let L := set_root new_sibling (l_root L self) L in
  let L := set_parent new_sibling (l_parent L self) L in
  let L := set_next new_sibling (Some self) L in
  let previous_opt := l_prev L self in
  let L := set_prev self None L in
  let L := match previous_opt with
           | Some pv => set_prev new_sibling (Some pv) L
           | None => L
           end in
  let L := set_prev self (Some new_sibling) L in
  match previous_opt with
  | Some pv =>
      u_borrow_mut (self :: G) pv L (
      match l_next L pv with
      | None => (L, Panics PDebugAssert)
      | Some rc =>
          if Nat.eqb rc self then (set_next pv (Some new_sibling) L, Gives tt)
          else (L, Panics PDebugAssert)
      end)
  | None =>
      match l_parent L self with
      | Some p =>
          u_borrow_mut (self :: G) p L (set_first p (Some new_sibling) L, Gives tt)
      | None => (L, Gives tt)
      end
  end)).

(* RefCell::borrow and borrow_mut under the guards of the user. *)
Definition u_reading {A} (g : guards) (n : nid) (D : dom) (k : dom * fate A) : dom * fate A :=
  if mem n (g_mut g) then (D, Panics PBorrow) else k.
Definition u_writing {A} (g : guards) (n : nid) (D : dom) (k : dom * fate A) : dom * fate A :=
  if mem n (all_guards g) then (D, Panics PBorrow) else k.

(* Node::remove_attribute, node.rs:563-587. *)
Definition u_remove_attribute (g : guards) (self : nid) (name : aname) (D : dom) : dom * fate unit :=
  u_reading g self D (
  if negb (has_attribute D self name) then (D, Gives tt) else
  D <~ match attrs_get_value (attributes D self) name with
            | Some v =>
                match link_target v with
                | Some node =>
                    u_reading g node D (
                    match position (fun n => Nat.eqb n self) (linked_nodes D node) with
                    | None => (D, Panics PUnwrap)
                    | Some index =>
                        u_writing (add_ref self g) node D
                          (modify node (fun d => set_linked (remove_at index (d_linked d)) d) D, Gives tt)
                    end)
                | None => (D, Gives tt)
                end
            | None => (D, Gives tt)
            end ;;
  u_writing g self D (modify self (fun d => set_attrs (attrs_remove (d_attrs d) name) d) D, Gives tt)).

(* Node::set_simple_attribute, node.rs:479-487. *)
Definition u_set_simple_attribute (g : guards) (self : nid) (a : attr) (D : dom) : dom * fate unit :=
  if is_link_container (a_value a) then (D, Panics PDebugAssert) else
  D <~ u_remove_attribute g self (a_name a) D ;;
  u_writing g self D (modify self (fun d => set_attrs (attrs_insert (d_attrs d) a) d) D, Gives tt).

(* Node::set_link_attribute, node.rs:489-528. *)
Definition u_set_link_attribute (g : guards) (self : nid) (name : aname) (node : nid) (fb : option fallback)
  (D : dom) : dom * fate result :=
  u_reading g node D (
  if negb (has_id D node) then (D, Gives (RErr ElementMustHaveAnId)) else
  u_reading g self D (
  if str_eqb (id_of D self) (id_of D node) then (D, Gives (RErr ElementCrosslink)) else
  if existsb (fun n => Nat.eqb n node) (linked_nodes D self) then (D, Gives (RErr ElementCrosslink)) else
  D <~ u_remove_attribute g self name D ;;
  u_writing g self D (
  let D := modify self (fun d => set_attrs (attrs_insert (d_attrs d) (link_attr name node fb)) d) D in
  u_writing g node D (
  let D := modify node (fun d => set_linked (d_linked d ++ [self]) d) D in
  (D, Gives ROk))))).

(* Node::set_attribute_checked, node.rs:452-477. *)
Definition u_set_attribute_checked (g : guards) (self : nid) (a : attr) (D : dom) : dom * fate result :=
  u_reading g self D (
  if negb (is_element D self) then (D, Panics PDebugAssert) else
  match a_value a with
  | VLink iri | VFuncLink iri => u_set_link_attribute g self (a_name a) iri None D
  | VPaint iri fb => u_set_link_attribute g self (a_name a) iri fb D
  | _ => D <~ u_set_simple_attribute g self a D ;; (D, Gives ROk)
  end).

(* Node::set_attribute, node.rs:339-343. *)
Definition u_set_attribute (g : guards) (self : nid) (a : attr) (D : dom) : dom * fate unit :=
  r & D <~ u_set_attribute_checked g self a D ;;
  match r with
  | ROk => (D, Gives tt)
  | RErr _ => (D, Panics PUnwrap)
  end.

(* Node::set_attribute_if_none, node.rs:547-554. *)
Definition u_set_attribute_if_none (g : guards) (self : nid) (a : attr) (D : dom) : dom * fate unit :=
  u_reading g self D
    (if negb (has_attribute D self (a_name a)) then u_set_attribute g self a D else (D, Gives tt)).

(* Document::create_element, document.rs:113-138, and create_node, document.rs:149-166: the checks come
   first.  slab::Slab::insert does not panic in between. *)
Definition u_create (r : res (nid * dom)) (D : dom) : dom * fate nid :=
  match r with
  | Ok (n, D') => (D', Gives n)
  | Panic p => (D, Panics p)
  | Diverge => (D, Panics PUnwrap) (* does not occur: no loop *)
  end.

(* The loop of Document::copy_node, document.rs:338-340. *)
Fixpoint u_copy_attrs (g : guards) (elem : nid) (l : list attr) (D : dom) : dom * fate unit :=
  match l with
  | [] => (D, Gives tt)
  | a :: t => D <~ u_set_attribute g elem a D ;; u_copy_attrs g elem t D
  end.

(* Document::copy_node, document.rs:333-348. *)
Definition u_copy_node (g : guards) (node : nid) (D : dom) : dom * fate nid :=
  u_reading g node D (
  match node_type D node with
  | NElement =>
      let attrs := attributes D node in
      elem & D <~ u_create (create_element (tag_name D node) D) D ;;
      D <~ u_copy_attrs (add_ref node g) elem attrs D ;;
      (D, Gives elem)
  | ty => u_create (create_node ty (text_of D node) D) D
  end).
