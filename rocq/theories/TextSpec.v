(* Specification of white space processing, in terms of strings and of the tree the API shows. *)
From Coq Require Import String List Bool PeanoNat NArith.
From Verif Require Import Base Ids Data Attrs NodeApi ForestSpec Text.
Import ListNotations.
Open Scope N_scope.
Open Scope list_scope.

(* XML white space: space, tab, line feed, carriage return. *)
Definition white (c : chr) : bool := (c =? 32) || (c =? 9) || (c =? 10) || (c =? 13).

(* Every white character becomes a space. *)
Definition spaced (s : str) : str := map (fun c => if white c then 32 else c) s.

(* A space after a space is dropped. *)
Fixpoint collapse (s : str) : str :=
  match s with
  | [] => []
  | c :: t => match t with
              | d :: _ => if (c =? 32) && (d =? 32) then collapse t else c :: collapse t
              | [] => [c]
              end
  end.

(* Spaces at the two ends are dropped. *)
Fixpoint lstrip (s : str) : str :=
  match s with
  | [] => []
  | c :: t => if c =? 32 then lstrip t else s
  end.
Definition rstrip (s : str) : str := rev (lstrip (rev s)).

(* The default processing of one string. *)
Definition normal (s : str) : str := rstrip (lstrip (collapse (spaced s))).

(* The processing of a string on its own, without the ends. *)
Definition clean (m : xmlspace) (s : str) : str :=
  match m with Default => collapse (spaced s) | Preserve => spaced s end.

(* What a user sees of a normalised string. *)
Definition no_double (s : str) : Prop := forall a b, s <> a ++ [32; 32] ++ b.
Definition no_lead (s : str) : Prop := forall a, s <> 32 :: a.
Definition no_trail (s : str) : Prop := forall a, s <> a ++ [32].

(* [new] is [old] with white characters turned into spaces or dropped, and nothing else. *)
Inductive whitened : str -> str -> Prop :=
| wh_nil  : whitened [] []
| wh_keep : forall c o n, whitened o n -> whitened (c :: o) (c :: n)
| wh_turn : forall c o n, white c = true -> whitened o n -> whitened (c :: o) (32 :: n)
| wh_drop : forall c o n, white c = true -> whitened o n -> whitened (c :: o) n.

(* [new] is [old] without some spaces at its ends. *)
Definition shortened (old new : str) : Prop :=
  exists a b, old = a ++ new ++ b /\ Forall (fun c => c = 32) a /\ Forall (fun c => c = 32) b.

(* The value of the attribute xml:space of a node, if there is one. *)
Definition space_of_string (s : str) : xmlspace := if str_eqb s (lit "preserve") then Preserve else Default.
Definition own_space (D : dom) (n : nid) : option xmlspace :=
  match attrs_get_value (attributes D n) (QId A_Space) with
  | Some (VString s) => Some (space_of_string s)
  | _ => None
  end.

(* The mode of a node: the nearest xml:space above it, itself included. *)
Inductive space_mode (D : dom) (F : forest) : nid -> xmlspace -> Prop :=
| sm_own : forall n m, own_space D n = Some m -> space_mode D F n m
| sm_up  : forall n p m, own_space D n = None -> parent_of F n = Some p -> space_mode D F p m -> space_mode D F n m
| sm_top : forall n, own_space D n = None -> parent_of F n = None -> space_mode D F n Default.

(* The first child of an element is a text node. *)
Definition opens_with_text (D : dom) (F : forest) (e : nid) : Prop :=
  is_element D e = true /\ exists c, hd_error (children_of F e) = Some c /\ is_text D c = true.

(* [e] is the outermost such element above the text node [n] in the tree of the document. *)
Definition text_root (D : dom) (F : forest) (e n : nid) : Prop :=
  opens_with_text D F e /\ anc_or_self F e n /\ e <> n /\ anc_or_self F (droot D) e /\
  forall a, anc_or_self F a e -> a <> e -> ~ opens_with_text D F a.

(* The text nodes below a node, in document order. *)
Definition texts (D : dom) (t : tree) : list nid := filter (is_text D) (preorder t).

(* Documents as the parser builds them: only elements and the root have children, the root is on
   top, xml:space holds a string. *)
Record textual (D : dom) (F : forest) : Prop := {
  tx_inner : forall n p, parent_of F n = Some p -> is_element D p = true \/ p = droot D;
  tx_top   : parent_of F (droot D) = None;
  tx_space : forall n v, attrs_get_value (attributes D n) (QId A_Space) = Some v -> exists s, v = VString s
}.

(* The mode of an element inside of another one whose mode is [m], and of a text node in it: the
   attribute of the element counts, elements in between do not. *)
Definition mode_at (D : dom) (m : xmlspace) (x : nid) : xmlspace :=
  match own_space D x with Some o => o | None => m end.
Definition tmode (D : dom) (F : forest) (m : xmlspace) (n : nid) : xmlspace :=
  match parent_of F n with Some p => mode_at D m p | None => m end.

(* The text elements in document order, each with its mode: elements whose first child is a text
   node, not below another such element. *)
Fixpoint groups (D : dom) (m : xmlspace) (t : tree) : list (xmlspace * tree) :=
  match t with
  | T n ts =>
      if is_element D n then
        if match ts with T c _ :: _ => is_text D c | [] => false end
        then [(mode_at D m n, t)]
        else flat_map (groups D (mode_at D m n)) ts
      else []
  end.

(* A string with a character that is not white. *)
Definition inked (s : str) : Prop := exists c, In c s /\ white c = false.

(* A string with a character that is not white space of any kind, and strings that start or end with
   a white character. *)
Definition visible (s : str) : Prop := exists c, In c s /\ is_white c = false.
Definition lead_white (s : str) : Prop := exists c u, s = c :: u /\ white c = true.
Definition trail_white (s : str) : Prop := exists c u, s = u ++ [c] /\ white c = true.

(* The text of a list of nodes. *)
Definition all_text (tx : nid -> str) (l : list nid) : str := concat (map tx l).

(* What happens to the texts [tx] of a text element. *)
Record group_effect (D : dom) (F : forest) (m : xmlspace) (t : tree) (tx tx' : nid -> str) : Prop := {
  (* text by text: white characters become spaces, in default mode runs become one space, and then
     some spaces at the ends may go *)
  ge_each : forall n, In n (texts D t) -> shortened (clean (tmode D F m n) (tx n)) (tx' n);
  (* a single text *)
  ge_one : forall n, texts D t = [n] -> tx' n = match m with Default => normal (tx n) | Preserve => spaced (tx n) end;
  (* many texts, all of them in default mode and with some ink: they are treated as one string,
     except when there are two of them with space at both outer ends *)
  ge_many : forall a b l, texts D t = a :: b :: l ->
    (forall n, In n (texts D t) -> tmode D F m n = Default /\ inked (tx n)) ->
    (l = [] -> no_lead (spaced (tx a)) \/ no_trail (spaced (tx b))) ->
    all_text tx' (texts D t) = normal (all_text tx (texts D t));
  (* the same when some of the texts are blank, each of them right after a visible text: exactly the
     cases where the texts are treated as one string *)
  ge_exact : forall a b l, texts D t = a :: b :: l ->
    (forall n, In n (texts D t) -> tmode D F m n = Default /\ tx n <> []) ->
    (forall l1 x y l2, texts D t = l1 ++ x :: y :: l2 -> inked (tx y) \/ visible (tx x)) ->
    (all_text tx' (texts D t) = normal (all_text tx (texts D t)) <->
     ~ (~ inked (tx a) /\ lead_white (tx b) /\ parent_of F b = Some (t_node t)) /\
     ~ (l = [] /\ lead_white (tx a) /\ trail_white (tx b) /\
        ~ (inked (tx a) /\ trail_white (tx a) /\ ~ inked (tx b) /\ parent_of F b <> Some (t_node t))));
  (* a text in preserve mode is kept, unless the last text of the element is blank *)
  ge_keep : forall n z l, texts D t = l ++ [z] -> In n (texts D t) -> tmode D F m n = Preserve ->
    inked (tx z) \/ tmode D F m z = Preserve /\ tx z <> [] -> tx' n = spaced (tx n)
}.

(* No xml:space strictly between the text element [e] and the parent of the text [n], or one on the
   parent itself. *)
Definition direct (D : dom) (F : forest) (e n : nid) : Prop :=
  forall p, parent_of F n = Some p -> own_space D p = None ->
  forall a, anc_or_self F e a -> anc_or_self F a p -> a <> e -> own_space D a = None.
