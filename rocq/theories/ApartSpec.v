(* Specification: calls that concern different things. *)
From Coq Require Import List PeanoNat.
From Verif Require Import Base Ids Links Tree Data Attrs Slab NodeApi Doc History.
Import ListNotations.

(* A call that moves nodes. *)
Definition moves (o : op) : Prop :=
  match o with ODetach _ | OAppend _ _ | OPrepend _ _ | OInsertAfter _ _ | OInsertBefore _ _ => True | _ => False end.

(* The node whose text, id, tag name or attributes a call changes. *)
Definition changes (o : op) : option nid :=
  match o with
  | OSetText n _ | OTextMut n _ | OSetId n _ | OSetTagName n _ | OSetAttribute n _ | OSetAttributeChecked n _
  | OSetAttributeIfNone n _ | ORemoveAttribute n _ | OAttributeMut n _ _ => Some n
  | _ => None
  end.

(* The node that a call is to make a link to. *)
Definition links_to (o : op) : option nid :=
  match o with
  | OSetAttribute _ a | OSetAttributeChecked _ a | OSetAttributeIfNone _ a => link_target (a_value a)
  | _ => None
  end.

(* Two calls change different nodes, and neither links to the node that the other changes. *)
Definition apart (o1 o2 : op) : Prop :=
  exists n m, changes o1 = Some n /\ changes o2 = Some m /\ n <> m /\ links_to o1 <> Some m /\ links_to o2 <> Some n.

(* One call after the other. *)
Definition both_calls (o1 o2 : op) (D : dom) : res dom := D1 <- step o1 D ;; step o2 D1.
