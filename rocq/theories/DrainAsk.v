(* Document::drain with a closure that has a memory of its own and may panic. *)
From Coq Require Import List Bool PeanoNat.
From Verif Require Import Base Links Tree Data Attrs Slab NodeApi Doc.
Import ListNotations.

(* A closure Fn(&Node) -> bool that has captured cells: the values in them, the document and the node give the
   new values and the answer, or a panic.  It does not change the document (see DrainEdit.v for that). *)
Definition asker (M : Type) := M -> dom -> nid -> M * option bool.

(* Document::_drain, document.rs:311-328.  The last part of the result is the count, or None if the closure has
   panicked; the document is then what a user finds who catches the panic. *)
Fixpoint a_drain_loop {M} (fuel : nat) (f : asker M) (node : option nid) (m : M) (D : dom) (count : nat)
  : res (M * dom * option nat) :=
  match fuel with
  | O => Diverge
  | S fl =>
      match node with
      | None => Ok (m, D, Some count)
      | Some n =>
          match f m D n with
          | (m, None) => Ok (m, D, None)
          | (m, Some true) =>
              let nx := next_sibling (lk D) n in
              D <- remove_node n D ;;
              a_drain_loop fl f nx m D (S count)
          | (m, Some false) =>
              r <- (if has_children (lk D) n
                    then a_drain_loop fl f (first_child (lk D) n) m D count
                    else Ok (m, D, Some count)) ;;
              match r with
              | (m, D, None) => Ok (m, D, None)
              | (m, D, Some count) => a_drain_loop fl f (next_sibling (lk D) n) m D count
              end
          end
      end
  end.

(* Document::drain, document.rs:303-309. *)
Definition a_drain {M} (root : nid) (f : asker M) (m : M) (D : dom) : res (M * dom * option nat) :=
  a_drain_loop (S (enough D)) f (first_child (lk D) root) m D 0.
