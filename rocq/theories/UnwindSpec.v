(* Specification: the document after a panic that was caught. *)
From Coq Require Import List PeanoNat.
From Verif Require Import Base Links Tree ForestSpec TreeSpec Data Attrs NodeApi AttrSpec Doc History Guards GuardSpec Unwind.
Import ListNotations.

(* parent(), first_child(), last_child(), next_sibling(), previous_sibling() fit together. *)
Definition consistent (L : links) : Prop := exists F, shows L F.

(* The lists of users and the links fit together. *)
Definition mirrored (D : dom) : Prop := forall a b, times a (linked_nodes D b) = uses D a b.

(* [o] is the end of a call on the tree [L] whose outcome for a user who does not catch panics is [r].  If it
   panics: nothing has changed if [early], otherwise the links no longer fit together. *)
Definition move_end (early : Prop) (L : links) (r : res links) (o : links * fate unit) : Prop :=
  uncaught_ o = r /\
  forall L' q, o = (L', Panics q) -> (early -> L' = L) /\ (~ early -> ~ consistent L').

(* The same for the data of a document.  If the call panics: the users no longer fit the links if [torn],
   otherwise nothing has changed. *)
Definition attr_end {A} (torn : Prop) (D : dom) (o : dom * fate A) : Prop :=
  forall D' q, o = (D', Panics q) -> (torn -> ~ mirrored D') /\ (~ torn -> D' = D).

(* The attribute is a link and its target is free, so that it loses [self] as a user; but the user reads
   [self], so that it cannot be written to. *)
Definition torn_remove (g : guards) (D : dom) (self : nid) (name : aname) : Prop :=
  held g self /\ ~ held_mut g self /\ exists t, points_to D self name t /\ ~ held g t.

(* The call would go through without guards, and either the old attribute is torn on its removal or the new
   one is a link that is stored while the user reads its target. *)
Definition torn_set (g : guards) (D : dom) (self : nid) (a : attr) : Prop :=
  is_element D self = true /\ refused D self a = None /\
  (forall t, link_target (a_value a) = Some t -> ~ held_mut g t) /\
  (torn_remove g D self (a_name a) \/
   ~ held g self /\ (forall t, points_to D self (a_name a) t -> ~ held g t) /\
   exists t, link_target (a_value a) = Some t /\ held g t).

(* The attribute cannot be copied: it is a link to a node without id or to a node the user holds a guard of. *)
Definition stuck (g : guards) (D : dom) (a : attr) : Prop :=
  exists t, link_target (a_value a) = Some t /\ (id_of D t = [] \/ held g t).
(* The link is stored while the user reads its target. *)
Definition torn_copy (g : guards) (D : dom) (a : attr) : Prop :=
  exists t, link_target (a_value a) = Some t /\ id_of D t <> [] /\ held g t /\ ~ held_mut g t.

(* [D'] is [D] with one more element, outside of any tree, with the tag name of [n] and these attributes. *)
Record started_copy (D : dom) (n : nid) (l : list attr) (D' : dom) : Prop := {
  sc_tree  : lk D' = lk D;
  sc_fresh : fresh D' = S (fresh D);
  sc_type  : node_type D' (fresh D) = NElement;
  sc_tag   : tag_name D' (fresh D) = tag_name D n;
  sc_id    : id_of D' (fresh D) = [];
  sc_attrs : attributes D' (fresh D) = l;
  sc_old   : forall m, m < fresh D -> node_type D' m = node_type D m /\ tag_name D' m = tag_name D m /\
               id_of D' m = id_of D m /\ text_of D' m = text_of D m /\ attributes D' m = attributes D m
}.

(* After a panic of copy_node: nothing has changed; or the new element has got the attributes in front of the
   first one that cannot be copied, and then the users fit the links unless [torn_copy]. *)
Definition copy_end (g : guards) (D : dom) (n : nid) (o : dom * fate nid) : Prop :=
  forall D' q, o = (D', Panics q) ->
  D' = D \/
  node_type D n = NElement /\ exists pre a post,
    attributes D n = pre ++ a :: post /\ (forall b, In b pre -> ~ stuck g D b) /\ stuck g D a /\
    (torn_copy g D a -> ~ mirrored D') /\
    (~ torn_copy g D a -> reachable D' /\ started_copy D n pre D').
