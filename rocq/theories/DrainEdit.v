(* Document::drain with a closure that edits nodes. *)
From Coq Require Import List Bool PeanoNat.
From Verif Require Import Base Links Tree Data Attrs Slab NodeApi Doc.
Import ListNotations.

(* A closure Fn(&Node) -> bool: it is called with a node, answers, and may have changed the nodes of the
   document (handles are cloned freely).  Calling it may panic. *)
Definition closure := dom -> nid -> res (bool * dom).

(* Document::_drain, document.rs:311-328. *)
Fixpoint e_drain_loop (fuel : nat) (f : closure) (node : option nid) (s : dom * nat) : res (dom * nat) :=
  match fuel with
  | O => Diverge
  | S fl =>
      match node with
      | None => Ok s
      | Some n =>
          r <- f (fst s) n ;;
          let D := snd r in
          if (fst r : bool) then
            let nx := next_sibling (lk D) n in
            D <- remove_node n D ;;
            e_drain_loop fl f nx (D, S (snd s))
          else
            s <- (if has_children (lk D) n
                  then e_drain_loop fl f (first_child (lk D) n) (D, snd s)
                  else Ok (D, snd s)) ;;
            e_drain_loop fl f (next_sibling (lk (fst s)) n) s
      end
  end.

(* Document::drain, document.rs:303-309. *)
Definition e_drain (fuel : nat) (root : nid) (f : closure) (D : dom) : res (dom * nat) :=
  e_drain_loop fuel f (first_child (lk D) root) (D, 0).
