(* Raw access to the data of a node. *)
From Coq Require Import List Bool PeanoNat.
From Verif Require Import Base Links Data Attrs Slab NodeApi.
Import ListNotations.

(* Any change through Node::attributes_mut, node.rs:314-316.  A program can edit names and values in place
   (attributes.rs:88, 122, 190) and swap the list with that of another node; the model allows every list. *)
Definition attributes_mut (n : nid) (l : list attr) (D : dom) : dom := modify n (set_attrs l) D.
