(* Model of the structural operations of /repo/src/tree.rs.

   [G] is the list of nodes that are borrowed (by a Ref or RefMut guard) when a call is made and
   stay borrowed during it.  RefCell::borrow_mut of a node in the current list panics. *)
From Coq Require Import List Bool PeanoNat.
From Verif Require Import Base Links.
Import ListNotations.

(* RefCell::borrow_mut while the nodes in [G] are borrowed. *)
Definition borrow_mut {A} (G : list nid) (n : nid) (k : res A) : res A :=
  if mem n G then Panic PBorrow else k.

(* Node::root, tree.rs:96-101 (upgrade().unwrap() succeeds: nodes are assumed alive). *)
Definition root_of (L : links) (n : nid) : nid :=
  match l_root L n with
  | Some r => r
  | None => n
  end.

(* Node::parent, tree.rs:108-110. *)
Definition parent (L : links) (n : nid) : option nid := l_parent L n.
(* Node::first_child, tree.rs:117-119. *)
Definition first_child (L : links) (n : nid) : option nid := l_first L n.
(* Node::last_child, tree.rs:126-128. *)
Definition last_child (L : links) (n : nid) : option nid := l_last L n.
(* Node::previous_sibling, tree.rs:135-137. *)
Definition previous_sibling (L : links) (n : nid) : option nid := l_prev L n.
(* Node::next_sibling, tree.rs:144-146. *)
Definition next_sibling (L : links) (n : nid) : option nid := l_next L n.
(* Node::has_children, tree.rs:203-205. *)
Definition has_children (L : links) (n : nid) : bool :=
  match first_child L n with Some _ => true | None => false end.

(* NodeData::detach, tree.rs:386-412, called while the nodes in [G] (among them [n] itself) are
   borrowed. *)
Definition detach_data (G : list nid) (n : nid) (L : links) : res links :=
  let parent_weak := l_parent L n in
  let previous_weak := l_prev L n in
  let next_strong := l_next L n in
  let L := set_next n None (set_prev n None (set_parent n None L)) in
  L <- match next_strong with
       | Some nx => borrow_mut G nx (Ok (set_prev nx previous_weak L))
       | None =>
           match parent_weak with
           | Some p => borrow_mut G p (Ok (set_last p previous_weak L))
           | None => Ok L
           end
       end ;;
  match previous_weak with
  | Some pv => borrow_mut G pv (Ok (set_next pv next_strong L))
  | None =>
      match parent_weak with
      | Some p => borrow_mut G p (Ok (set_first p next_strong L))
      | None => Ok L
      end
  end.

(* Node::detach, tree.rs:229-231. *)
Definition detach (G : list nid) (n : nid) (L : links) : res links :=
  borrow_mut G n (detach_data (n :: G) n L).

(* self.root.clone().unwrap_or(Rc::downgrade(&self.0)), tree.rs:246 and 281. *)
Definition root_or_self (L : links) (self : nid) : option nid :=
  match l_root L self with Some r => Some r | None => Some self end.

(* Node::append, tree.rs:238-266. *)
Definition append (G : list nid) (self new_child : nid) (L : links) : res links :=
  if Nat.eqb self new_child then Panic PAssert else
  borrow_mut G self (
  borrow_mut (self :: G) new_child (
  L <- detach_data (new_child :: self :: G) new_child L ;;
  let L := set_root new_child (root_or_self L self) L in
  let L := set_parent new_child (Some self) L in
  let last_child_opt := l_last L self in
  let L := set_last self None L in
  let L := match last_child_opt with
           | Some lc => set_prev new_child (Some lc) L
           | None => L
           end in
  let L := set_last self (Some new_child) L in
  (* new_child_borrow ends here *)
  match last_child_opt with
  | Some lc =>
      borrow_mut (self :: G) lc (
      match l_next L lc with
      | Some _ => Panic PDebugAssert
      | None => Ok (set_next lc (Some new_child) L)
      end)
  | None =>
      match l_first L self with
      | Some _ => Panic PDebugAssert
      | None => Ok (set_first self (Some new_child) L)
      end
  end)).

(* Node::prepend, tree.rs:273-298. *)
Definition prepend (G : list nid) (self new_child : nid) (L : links) : res links :=
  if Nat.eqb self new_child then Panic PAssert else
  borrow_mut G self (
  borrow_mut (self :: G) new_child (
  L <- detach_data (new_child :: self :: G) new_child L ;;
  let L := set_root new_child (root_or_self L self) L in
  let L := set_parent new_child (Some self) L in
  let first_child_opt := l_first L self in
  let L := set_first self None L in
  L <- match first_child_opt with
       | Some fc =>
           borrow_mut (new_child :: self :: G) fc (
           match l_prev L fc with
           | Some _ => Panic PDebugAssert
           | None =>
               let L := set_prev fc (Some new_child) L in
               Ok (set_next new_child (Some fc) L)
           end)
       | None =>
           match l_first L self with
           | Some _ => Panic PDebugAssert
           | None => Ok (set_last self (Some new_child) L)
           end
       end ;;
  Ok (set_first self (Some new_child) L))).

(* Node::insert_after, tree.rs:305-338. *)
Definition insert_after (G : list nid) (self new_sibling : nid) (L : links) : res links :=
  if Nat.eqb self new_sibling then Panic PAssert else
  borrow_mut G self (
  borrow_mut (self :: G) new_sibling (
  L <- detach_data (new_sibling :: self :: G) new_sibling L ;;
  let L := set_root new_sibling (l_root L self) L in
  let L := set_parent new_sibling (l_parent L self) L in
  let L := set_prev new_sibling (Some self) L in
  let next_opt := l_next L self in
  let L := set_next self None L in
  L <- match next_opt with
       | Some nx =>
           borrow_mut (new_sibling :: self :: G) nx (
           match l_prev L nx with
           | None => Panic PDebugAssert
           | Some w =>
               if Nat.eqb w self then
                 let L := set_prev nx (Some new_sibling) L in
                 Ok (set_next new_sibling (Some nx) L)
               else Panic PDebugAssert
           end)
       | None =>
           match l_parent L self with
           | Some p =>
               borrow_mut (new_sibling :: self :: G) p (
               Ok (set_last p (Some new_sibling) L))
           | None => Ok L
           end
       end ;;
  Ok (set_next self (Some new_sibling) L))).

(* Node::insert_before, tree.rs:345-381. *)
Definition insert_before (G : list nid) (self new_sibling : nid) (L : links) : res links :=
  if Nat.eqb self new_sibling then Panic PAssert else
  borrow_mut G self (
  borrow_mut (self :: G) new_sibling (
  L <- detach_data (new_sibling :: self :: G) new_sibling L ;;
  let L := set_root new_sibling (l_root L self) L in
  let L := set_parent new_sibling (l_parent L self) L in
  let L := set_next new_sibling (Some self) L in
  let previous_opt := l_prev L self in
  let L := set_prev self None L in
  let L := match previous_opt with
           | Some pv => set_prev new_sibling (Some pv) L
           | None => L
           end in
  let L := set_prev self (Some new_sibling) L in
  (* new_sibling_borrow ends here *)
  match previous_opt with
  | Some pv =>
      borrow_mut (self :: G) pv (
      match l_next L pv with
      | None => Panic PDebugAssert
      | Some rc =>
          if Nat.eqb rc self then Ok (set_next pv (Some new_sibling) L)
          else Panic PDebugAssert
      end)
  | None =>
      match l_parent L self with
      | Some p =>
          borrow_mut (self :: G) p (Ok (set_first p (Some new_sibling) L))
      | None => Ok L
      end
  end)).
