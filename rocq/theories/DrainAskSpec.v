(* Specification: which nodes drain asks its closure about, and when. *)
From Coq Require Import List Bool PeanoNat.
From Verif Require Import Base Links ForestSpec Data Attrs Slab NodeApi Doc DrainAsk.
Import ListNotations.

(* The closure is asked about some nodes, one after the other, and gives these answers.  When it has said yes to
   a node, remove_node is called for it before the next question. *)
Inductive session {M} (f : asker M) (m : M) (D : dom) : list (nid * bool) -> M -> dom -> Prop :=
| ss_start : session f m D [] m D
| ss_no : forall c m1 D1 n m2, session f m D c m1 D1 -> f m1 D1 n = (m2, Some false) ->
    session f m D (c ++ [(n, false)]) m2 D1
| ss_yes : forall c m1 D1 n m2 D2, session f m D c m1 D1 -> f m1 D1 n = (m2, Some true) ->
    remove_node n D1 = Ok D2 -> session f m D (c ++ [(n, true)]) m2 D2.

(* The nodes the closure said yes to. *)
Definition yes (c : list (nid * bool)) : list nid := map fst (filter snd c).

(* The nodes of a tree in document order, without those below a node of [stop]. *)
Fixpoint order (stop : list nid) (t : tree) : list nid :=
  match t with
  | T n ts => n :: if mem n stop then [] else flat_map (order stop) ts
  end.
