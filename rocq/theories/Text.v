(* Model of /repo/src/parser/text.rs: white space preprocessing of text nodes. *)
From Coq Require Import String List Bool PeanoNat NArith.
From Verif Require Import Base Ids Links Tree Iter Data Attrs Slab NodeApi Doc.
Import ListNotations.
Open Scope list_scope.

(* StrTrim::remove_first, text.rs:16-18: String::drain(0..1) panics when the string is empty or when
   byte 1 is not a char boundary. *)
Definition remove_first (s : str) : res str :=
  match s with
  | [] => Panic PStr
  | c :: t => if Nat.eqb (length (utf8_char c)) 1 then Ok t else Panic PStr
  end.

(* StrTrim::remove_last, text.rs:20-22: String::pop. *)
Definition remove_last (s : str) : str := removelast s.

(* XmlSpace, text.rs:25-29. *)
Inductive xmlspace := Default | Preserve.
Definition is_default (m : xmlspace) : bool := match m with Default => true | Preserve => false end.

(* The document and the vector [nodes] of nodes that got a temporary xml:space, text.rs:39. *)
Definition tstate := (dom * list nid)%type.
Definition t_links (s : tstate) : links := lk (fst s).

(* trim, text.rs:261-283: the loop, with the previous character. *)
Definition to_space (c : chr) : chr := (if (c =? 13) || (c =? 10) || (c =? 9) then 32 else c)%N.
Fixpoint trim_loop (prev : chr) (text : str) (space : xmlspace) : str :=
  match text with
  | [] => []
  | c :: t =>
      let c := to_space c in
      if (is_default space && (c =? 32) && (c =? prev))%N then trim_loop prev t space
      else c :: trim_loop c t space
  end.
Definition trim (text : str) (space : xmlspace) : str := trim_loop 48%N text space.

(* set_xmlspace, text.rs:82-91. *)
Definition space_value (m : xmlspace) : str :=
  match m with Default => lit "default" | Preserve => lit "preserve" end.
Definition set_xmlspace (node : nid) (m : xmlspace) (s : tstate) : res tstate :=
  D <- set_attribute node (mkAttr (QId A_Space) (VString (space_value m))) (fst s) ;;
  Ok (D, snd s ++ [node]).

(* get_xmlspace, text.rs:67-80. *)
Definition get_xmlspace (node : nid) (default : xmlspace) (s : tstate) : res (xmlspace * tstate) :=
  match attrs_get_value (attributes (fst s) node) (QId A_Space) with
  | Some (VString v) => Ok (if str_eqb v (lit "preserve") then Preserve else Default, s)
  | _ => s <- set_xmlspace node default s ;; Ok (default, s)
  end.

(* Option::unwrap. *)
Definition unwrap {A} (o : option A) : res A := match o with Some a => Ok a | None => Panic PUnwrap end.

(* A `for node in parent.descendants()` loop whose body may change the document. *)
Fixpoint for_descendants {A} (getL : A -> links) (fuel : nat) (body : nid -> A -> res A)
  (it : traverse_it) (s : A) : res A :=
  match fuel with
  | O => Diverge
  | S f =>
      r <- descendants_next fuel (getL s) it ;;
      match r with
      | (Some n, it') => s <- body n s ;; for_descendants getL f body it' s
      | (None, _) => Ok s
      end
  end.

(* The body of the first loop of prepare_text_children, text.rs:96-103. *)
Definition trim_child (xs : xmlspace) (child : nid) (s : tstate) : res tstate :=
  if is_text (fst s) child then
    p <- unwrap (parent (t_links s) child) ;;
    r <- get_xmlspace p xs s ;;
    let s := snd r in
    D <- set_text child (trim (text_of (fst s) child) (fst r)) (fst s) ;;
    Ok (D, snd s)
  else Ok s.

(* Concatenating the results of a function over a list. *)
Definition flat_res {A B} (f : A -> res (list B)) : list A -> res (list B) :=
  fix go l :=
    match l with
    | [] => Ok []
    | x :: t => a <- f x ;; b <- go t ;; Ok (a ++ b)
    end.

(* collect_text, text.rs:251-259 (the children are collected first: the loop changes nothing). *)
Fixpoint collect_text (fuel : nat) (D : dom) (parent_ : nid) (depth : nat) : res (list (nid * nat)) :=
  match fuel with
  | O => Diverge
  | S f =>
      l <- children_list fuel (lk D) (children (lk D) parent_) ;;
      flat_res (fun child =>
        if is_text D child then Ok [(child, depth)]
        else if is_element D child then collect_text f D child (S depth)
        else Ok []) l
  end.

(* text_mut().remove_first() and text_mut().remove_last(). *)
Definition cut_first (n : nid) (D : dom) : res dom :=
  t <- remove_first (text_of D n) ;; Ok (text_mut n t D).
Definition cut_last (n : nid) (D : dom) : dom := text_mut n (remove_last (text_of D n)) D.

(* as_bytes().first(), as_bytes().last() and the comparison with b' '. *)
Definition first_byte (s : str) : option N := hd_error (utf8 s).
Definition last_byte (s : str) : option N := hd_error (rev (utf8 s)).
Definition is_space (c : option N) : bool := match c with Some x => (x =? 32)%N | None => false end.
Definition is_empty (s : str) : bool := match s with [] => true | _ => false end.

(* char::is_whitespace (Unicode White_Space), used by str::trim. *)
Definition is_white (c : chr) : bool :=
  (((9 <=? c) && (c <=? 13)) || (c =? 32) || (c =? 133) || (c =? 160) || (c =? 5760) ||
   ((8192 <=? c) && (c <=? 8202)) || (c =? 8232) || (c =? 8233) || (c =? 8239) || (c =? 8287) || (c =? 12288))%N.
(* str::trim().is_empty(). *)
Definition blank_str (s : str) : bool := forallb is_white s.

(* An element with a single text node, text.rs:113-146. *)
Definition single_text (node : nid) (xs : xmlspace) (D : dom) : res dom :=
  if is_default xs then
    let text := text_of D node in
    match length (utf8 text) with
    | 0 => Ok D
    | 1 => if is_space (first_byte text) then Ok (text_mut node [] D) else Ok D
    | _ =>
        let c1 := first_byte text in
        let c2 := last_byte text in
        D <- (if is_space c1 then cut_first node D else Ok D) ;;
        Ok (if is_space c2 then cut_last node D else D)
    end
  else Ok D.

(* Lines 197-208: a space at both sides of the border. *)
Definition fix_border (node1 node2 : nid) (depth1 depth2 : nat) (xs1 xs2 : xmlspace) (c2 c3 : option N)
  (D : dom) : res dom :=
  if is_space c2 && is_space c3 then
    if Nat.ltb depth1 depth2 then
      if is_default xs2 then cut_first node2 D else Ok D
    else if is_default xs1 && is_default xs2 then Ok (cut_last node1 D)
    else if negb (is_default xs1) && is_default xs2 then cut_first node2 D
    else Ok D
  else Ok D.

(* Lines 210-229: the ends of the whole text. *)
Definition fix_ends (is_first is_last : bool) (node1 node2 : nid) (xs1 xs2 : xmlspace) (c1 c4 : option N)
  (D : dom) : res dom :=
  if is_first && is_space c1 && is_default xs1 && negb (is_empty (text_of D node1)) then cut_first node1 D
  else if is_last && is_space c4 && negb (is_empty (text_of D node2)) && is_default xs2
  then Ok (cut_last node2 D) else Ok D.

(* Lines 231-238. *)
Definition fix_last (is_last : bool) (node1 node2 : nid) (c2 : option N) (D : dom) : dom :=
  if is_last && is_space c2 && negb (is_empty (text_of D node1)) && is_empty (text_of D node2)
     && is_space (last_byte (text_of D node1))
  then cut_last node1 D else D.

(* The body of the loop over pairs, text.rs:160-245, with last_non_empty. *)
Definition pair_step (xs : xmlspace) (is_first is_last : bool) (p1 p2 : nid * nat) (last : option nid)
  (s : tstate) : res (option nid * tstate) :=
  let node2 := fst p2 in
  let node1 := if is_empty (text_of (fst s) (fst p1))
               then match last with Some n => n | None => fst p1 end else fst p1 in
  q1 <- unwrap (parent (t_links s) node1) ;;
  r1 <- get_xmlspace q1 xs s ;;
  q2 <- unwrap (parent (t_links (snd r1)) node2) ;;
  r2 <- get_xmlspace q2 xs (snd r1) ;;
  let xs1 := fst r1 in
  let xs2 := fst r2 in
  let D := fst (snd r2) in
  let c1 := first_byte (text_of D node1) in
  let c2 := last_byte (text_of D node1) in
  let c3 := first_byte (text_of D node2) in
  let c4 := last_byte (text_of D node2) in
  D <- fix_border node1 node2 (snd p1) (snd p2) xs1 xs2 c2 c3 D ;;
  D <- fix_ends is_first is_last node1 node2 xs1 xs2 c1 c4 D ;;
  let D := fix_last is_last node1 node2 c2 D in
  let last := if negb (blank_str (text_of D node1)) then Some node1 else last in
  Ok (last, (D, snd (snd r2))).

(* The loop over pairs, text.rs:157-247. *)
Fixpoint pair_loop (xs : xmlspace) (is_first : bool) (p1 : nid * nat) (rest : list (nid * nat))
  (last : option nid) (s : tstate) : res tstate :=
  match rest with
  | [] => Ok s
  | p2 :: rest' =>
      r <- pair_step xs is_first (match rest' with [] => true | _ => false end) p1 p2 last s ;;
      pair_loop xs false p2 rest' (fst r) (snd r)
  end.

(* prepare_text_children, text.rs:93-249. *)
Definition prepare_text_children (parent_ : nid) (xs : xmlspace) (s : tstate) : res tstate :=
  let fuel := 2 * enough (fst s) in
  s <- for_descendants t_links fuel (trim_child xs) (traverse parent_) s ;;
  nodes <- collect_text fuel (fst s) parent_ 0 ;;
  match nodes with
  | [] => Ok s
  | [p] => D <- single_text (fst p) xs (fst s) ;; Ok (D, snd s)
  | p :: rest => pair_loop xs true p rest None s
  end.

(* _prepare_text, text.rs:52-65. *)
Fixpoint prepare_rec (fuel : nat) (parent_ : nid) (xs : xmlspace) (s : tstate) : res tstate :=
  match fuel with
  | O => Diverge
  | S f =>
      for_children t_links f
        (fun node s =>
           if is_element (fst s) node then
             r <- get_xmlspace node xs s ;;
             let m := fst r in
             let s := snd r in
             match first_child (t_links s) node with
             | Some child =>
                 if is_text (fst s) child then prepare_text_children node m s else prepare_rec f node m s
             | None => prepare_rec f node m s
             end
           else Ok s)
        (children (t_links s) parent_) s
  end.

(* prepare_text, text.rs:37-50. *)
Fixpoint remove_marks (l : list nid) (D : dom) : res dom :=
  match l with
  | [] => Ok D
  | n :: t => D <- remove_attribute n (QId A_Space) D ;; remove_marks t D
  end.
Definition empty_text (D : dom) (n : nid) : bool := is_text D n && is_empty (text_of D n).
Definition prepare_text (D : dom) : res dom :=
  s <- prepare_rec (enough D) (droot D) Default (D, []) ;;
  D <- remove_marks (snd s) (fst s) ;;
  r <- drain (droot D) empty_text D ;;
  Ok (fst r).
