(* Several documents in one program.  The nodes of all documents are Rc cells of one heap (tree.rs:14-29);
   a Document (document.rs:59-62) is its root node and its storage. *)
From Coq Require Import List Bool PeanoNat.
From Verif Require Import Base Links Data Attrs Slab NodeApi Doc History.
Import ListNotations.

(* The links and data of all nodes, the next free handle, and the documents in the order of their creation:
   None for a document that was dropped.  [w_owner] is bookkeeping of the model: the document a node was
   created by. *)
Record world := mkWorld {
  w_lk    : links;
  w_dt    : nid -> ndata;
  w_fresh : nid;
  w_docs  : list (option (nid * slab));
  w_owner : nid -> nat
}.

(* No document yet. *)
Definition no_world : world := mkWorld no_links (fun _ => blank) 0 [] (fun _ => 0).

(* What a call on document [i] works with. *)
Definition view (W : world) (i : nat) : option dom :=
  match nth_error (w_docs W) i with
  | Some (Some d) => Some (mkDom (w_lk W) (w_dt W) (w_fresh W) (fst d) (snd d))
  | _ => None
  end.

(* The nodes made by a call on document [i] are its own. *)
Definition owner_after (W : world) (i : nat) : nid -> nat :=
  fun n => if Nat.ltb n (w_fresh W) then w_owner W n else i.

(* The world after a call on document [i]. *)
Definition put (i : nat) (D : dom) (W : world) : world :=
  mkWorld (lk D) (dt D) (fresh D) (replace_at i (Some (droot D, store D)) (w_docs W)) (owner_after W i).

(* Document::new, document.rs:68-87, in a program that has documents already. *)
Definition open_doc (W : world) : res world :=
  r <- alloc (new_data NRoot (QName []) []) (mkDom (w_lk W) (w_dt W) (w_fresh W) 0 slab_new) ;;
  let D := snd r in
  Ok (mkWorld (lk D) (dt D) (fresh D) (w_docs W ++ [Some (fst r, store D)])
        (owner_after W (length (w_docs W)))).

(* A call on document [i], or on nodes while document [i] is alive. *)
Definition call (i : nat) (o : op) (W : world) : res world :=
  match view W i with
  | Some D => D <- step o D ;; Ok (put i D W)
  | None => Panic PUnwrap
  end.

(* Drop for Document, document.rs:371-379. *)
Definition drop_doc (i : nat) (W : world) : res world :=
  match view W i with
  | Some D =>
      D <- drop_document D ;;
      Ok (mkWorld (lk D) (dt D) (fresh D) (replace_at i None (w_docs W)) (w_owner W))
  | None => Panic PUnwrap
  end.

(* Programs whose calls on a document meet [ok]. *)
Inductive wreach (ok : nat -> op -> world -> Prop) : world -> Prop :=
| wr_none : wreach ok no_world
| wr_open : forall W W', wreach ok W -> open_doc W = Ok W' -> wreach ok W'
| wr_call : forall W i o W', wreach ok W -> ok i o W -> call i o W = Ok W' -> wreach ok W'
| wr_drop : forall W i W', wreach ok W -> drop_doc i W = Ok W' -> wreach ok W'.
