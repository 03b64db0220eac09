(* Specification of the tree API in terms of the ordered forest a user sees. *)
From Coq Require Import List Bool PeanoNat.
From Verif Require Import Base Links Tree ForestSpec.
Import ListNotations.

(* Navigation agrees with one ordered forest. *)
Record shows (L : links) (F : forest) : Prop := {
  sh_wf     : wf_forest F;
  sh_parent : forall n, parent L n = parent_of F n;
  sh_first  : forall n, first_child L n = hd_error (children_of F n);
  sh_last   : forall n, last_child L n = last_error (children_of F n);
  sh_next   : forall n, next_sibling L n = succ_in n (siblings_of F n);
  sh_prev   : forall n, previous_sibling L n = pred_in n (siblings_of F n)
}.

(* Everything that a move of [n] must not change: the other parents, the order of the others in the
   child lists that are not the target, and in the parentless sibling chains that are not the target. *)
Record moved_only (n : nid) (target : nid -> Prop) (chain : nid -> Prop) (F F' : forest) : Prop := {
  mo_parent   : forall m, m <> n -> parent_of F' m = parent_of F m;
  mo_children : forall q, ~ target q -> children_of F' q = rm n (children_of F q);
  mo_own      : parent_of F n <> Some n -> ~ target n -> children_of F' n = children_of F n;
  mo_chain    : forall m, m <> n -> parent_of F m = None -> ~ chain m ->
                  siblings_of F' m = rm n (siblings_of F m)
}.

Definition appended (p n : nid) (F F' : forest) : Prop :=
  parent_of F' n = Some p /\
  children_of F' p = rm n (children_of F p) ++ [n] /\
  moved_only n (fun q => q = p) (fun _ => False) F F'.

Definition prepended (p n : nid) (F F' : forest) : Prop :=
  parent_of F' n = Some p /\
  children_of F' p = n :: rm n (children_of F p) /\
  moved_only n (fun q => q = p) (fun _ => False) F F'.

Definition inserted_after (a n : nid) (F F' : forest) : Prop :=
  parent_of F' n = parent_of F a /\
  (exists l1 l2, rm n (siblings_of F a) = l1 ++ a :: l2 /\ siblings_of F' a = l1 ++ a :: n :: l2) /\
  moved_only n (fun q => parent_of F a = Some q) (fun m => In m (siblings_of F a)) F F'.

Definition inserted_before (a n : nid) (F F' : forest) : Prop :=
  parent_of F' n = parent_of F a /\
  (exists l1 l2, rm n (siblings_of F a) = l1 ++ a :: l2 /\ siblings_of F' a = l1 ++ n :: a :: l2) /\
  moved_only n (fun q => parent_of F a = Some q) (fun m => In m (siblings_of F a)) F F'.

Definition detached (n : nid) (F F' : forest) : Prop :=
  parent_of F' n = None /\ siblings_of F' n = [n] /\
  moved_only n (fun _ => False) (fun _ => False) F F'.

(* [x] is the cell that has to be updated when [n] leaves its sibling list: a neighbour, or the
   parent when a neighbour is missing. *)
Definition touches (L : links) (n x : nid) : Prop :=
  next_sibling L n = Some x \/ previous_sibling L n = Some x \/
  parent L n = Some x /\ (next_sibling L n = None \/ previous_sibling L n = None).

(* [t] is the topmost node above [n]. *)
Inductive top_of (L : links) : nid -> nid -> Prop :=
| top_self : forall n, parent L n = None -> top_of L n n
| top_up   : forall n p t, parent L n = Some p -> top_of L p t -> top_of L n t.
