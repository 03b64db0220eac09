(* Specification of the attribute API. *)
From Coq Require Import List Bool PeanoNat NArith.
From Verif Require Import Base Ids Links Tree Data Attrs Slab NodeApi.
Import ListNotations.

(* The attribute list without the attribute called [name]. *)
Definition others (name : aname) (l : list attr) : list attr :=
  filter (fun a => negb (aname_eqb (a_name a) name)) l.

(* The number of attributes of [a] that link to [b]. *)
Definition uses (D : dom) (a b : nid) : nat :=
  length (filter (fun x => match link_target (a_value x) with Some t => Nat.eqb t b | None => false end)
                 (attributes D a)).

(* How often [x] occurs in a list of nodes. *)
Definition times (x : nid) (l : list nid) : nat := count_occ Nat.eq_dec l x.

(* What stays the same in every attribute operation: everything but attributes and users. *)
Record same_nodes (D D' : dom) : Prop := {
  sn_links : lk D' = lk D;
  sn_count : fresh D' = fresh D;
  sn_root  : droot D' = droot D;
  sn_store : store D' = store D;
  sn_key   : forall n, storage_key D' n = storage_key D n;
  sn_type  : forall n, node_type D' n = node_type D n;
  sn_tag   : forall n, tag_name D' n = tag_name D n;
  sn_id    : forall n, id_of D' n = id_of D n;
  sn_text  : forall n, text_of D' n = text_of D n
}.

(* The shape in which a value is stored: a link to a node is a Link for href, a Paint for fill and
   stroke and a FuncLink otherwise. *)
Definition fallback_of (v : avalue) : option fallback :=
  match v with VPaint _ fb => fb | _ => None end.
Definition shape (name : aname) (v : avalue) : avalue :=
  match link_target v with
  | None => v
  | Some t =>
      match name with
      | QId A_Href => VLink t
      | QId A_Fill | QId A_Stroke => VPaint t (fallback_of v)
      | _ => VFuncLink t
      end
  end.

(* The documented errors. *)
Definition refused (D : dom) (self : nid) (a : attr) : option error :=
  match link_target (a_value a) with
  | None => None
  | Some t =>
      if str_eqb (id_of D t) [] then Some ElementMustHaveAnId
      else if str_eqb (id_of D self) (id_of D t) then Some ElementCrosslink
      else if Nat.ltb 0 (uses D t self) then Some ElementCrosslink
      else None
  end.
