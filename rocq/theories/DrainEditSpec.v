(* Specification: drain with a closure that edits nodes. *)
From Coq Require Import List Bool.
From Verif Require Import Base Ids Links ForestSpec Data Attrs NodeApi AttrSpec Doc DocSpec History LoopSpec DrainEdit.
Import ListNotations.

(* The calls a closure can make: drain has the document borrowed, so no call of Document is among them. *)
Definition node_call (o : op) : Prop :=
  match o with
  | OCreateElement _ | OCreateNode _ _ | ORemoveNode _ | ODrain _ _ | OCopyNode _ | OCopyNodeDeep _ => False
  | _ => True
  end.
(* ... and those that do not move nodes. *)
Definition data_call (o : op) : Prop :=
  match o with
  | ODetach _ | OAppend _ _ | OPrepend _ _ | OInsertAfter _ _ | OInsertBefore _ _ => False
  | _ => node_call o
  end.

(* [D'] comes from [D] by calls that satisfy [ok]. *)
Inductive edits (ok : op -> dom -> Prop) (D : dom) : dom -> Prop :=
| edits_none : edits ok D D
| edits_call : forall D1 o D2, edits ok D D1 -> ok o D1 -> legal o D1 -> step o D1 = Ok D2 -> edits ok D D2.

Definition any_edit (o : op) (_ : dom) : Prop := node_call o.
Definition tame_edit (o : op) (D : dom) : Prop := node_call o /\ no_cycle_made o D.
Definition data_edit (o : op) (_ : dom) : Prop := data_call o.

(* The closure only makes such calls. *)
Definition only (ok : op -> dom -> Prop) (f : closure) : Prop :=
  forall D n b D', f D n = Ok (b, D') -> edits ok D D'.
(* The closure does not panic. *)
Definition total (f : closure) : Prop :=
  forall D n, reachable D -> exists_node D n -> exists r, f D n = Ok r.

(* [D'] comes from [D] by calls that do not move nodes and by removing the nodes [S]. *)
Inductive during (D : dom) : list nid -> dom -> Prop :=
| during_start : during D [] D
| during_edit : forall S D1 D2, during D S D1 -> edits data_edit D1 D2 -> during D S D2
| during_remove : forall S R D1 D2, during D S D1 -> removed R D1 D2 -> during D (S ++ R) D2.

(* In a state in between, when some of the nodes of [S] were gone but not [x], the closure answered [b] for [x]. *)
Definition said (f : closure) (D : dom) (S : list nid) (x : nid) (b : bool) : Prop :=
  exists S1 D1 D2, during D S1 D1 /\ (forall y, In y S1 -> In y S) /\ ~ In x S1 /\ f D1 x = Ok (b, D2).

(* What drain did with the trees [ts] if it removed the trees [ms]: they are whole subtrees, the closure said yes
   for the top of each and no for every node that is left. *)
Record drained_while (f : closure) (D D' : dom) (ts ms : list tree) : Prop := {
  dw_sub    : forall m, In m ms -> In m (flat_map subtrees ts);
  dw_yes    : forall m, In m ms -> said f D (flat_map preorder ms) (t_node m) true;
  dw_no     : forall x, In x (flat_map preorder ts) -> ~ In x (flat_map preorder ms) ->
                said f D (flat_map preorder ms) x false;
  dw_during : during D (flat_map preorder ms) D'
}.
