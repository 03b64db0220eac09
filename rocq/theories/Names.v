(* Model of the lookup part of /repo/src/names.rs (853-911). *)
From Coq Require Import List Bool NArith.
From Verif Require Import Base Ids NameTables.
Import ListNotations.
Open Scope N_scope.

(* ---- SipHash-1-3 (crate siphasher, sip::SipHasher13), used by names.rs:883-889.
   64 bit wrapping arithmetic on N. *)
Definition two64 : N := 2 ^ 64.
Definition wadd (a b : N) : N := (a + b) mod two64.
Definition rotl (x b : N) : N :=
  N.lor ((N.shiftl x b) mod two64) (N.shiftr x (64 - b)).

Definition sipstate : Type := N * N * N * N.

(* One SipRound. *)
Definition sipround (s : sipstate) : sipstate :=
  let '(v0, v1, v2, v3) := s in
  let v0 := wadd v0 v1 in
  let v1 := N.lxor (rotl v1 13) v0 in
  let v0 := rotl v0 32 in
  let v2 := wadd v2 v3 in
  let v3 := N.lxor (rotl v3 16) v2 in
  let v0 := wadd v0 v3 in
  let v3 := N.lxor (rotl v3 21) v0 in
  let v2 := wadd v2 v1 in
  let v1 := N.lxor (rotl v1 17) v2 in
  let v2 := rotl v2 32 in
  (v0, v1, v2, v3).

(* Little endian word of at most eight bytes. *)
Fixpoint le_word (bs : list N) : N :=
  match bs with
  | [] => 0
  | b :: t => b + 256 * le_word t
  end.

Definition sip_init (k0 k1 : N) : sipstate :=
  (N.lxor k0 8317987319222330741, N.lxor k1 7237128888997146477,
   N.lxor k0 7816392313619706465, N.lxor k1 8387220255154660723).

(* Absorb one word: one compression round. *)
Definition sip_word (s : sipstate) (m : N) : sipstate :=
  let '(v0, v1, v2, v3) := s in
  let '(v0, v1, v2, v3) := sipround (v0, v1, v2, N.lxor v3 m) in
  (N.lxor v0 m, v1, v2, v3).

(* Full words of a byte string; the rest is the tail. *)
Fixpoint sip_words (fuel : nat) (bs : list N) (s : sipstate) : sipstate * list N :=
  match fuel with
  | O => (s, bs)
  | S f =>
      if Nat.leb 8 (length bs)
      then sip_words f (skipn 8 bs) (sip_word s (le_word (firstn 8 bs)))
      else (s, bs)
  end.

Definition siphash13 (k0 k1 : N) (bs : list N) : N :=
  let '(s, tail) := sip_words (length bs) bs (sip_init k0 k1) in
  let b := N.lor (N.shiftl (N.of_nat (length bs) mod 256) 56) (le_word tail) in
  let '(v0, v1, v2, v3) := sip_word s b in
  let '(v0, v1, v2, v3) :=
    sipround (sipround (sipround (v0, v1, N.lxor v2 255, v3))) in
  N.lxor (N.lxor v0 v1) (N.lxor v2 v3).

(* hash, names.rs:883-889. *)
Definition hash (x : str) (key : N) : N := siphash13 0 key (utf8 x).

(* split, names.rs:899-906. *)
Definition split (h : N) : N * N * N :=
  let mask := N.shiftl 1 21 - 1 in
  (N.land h mask, N.land (N.shiftr h 21) mask, N.land (N.shiftr h 42) mask).

Definition two32 : N := 2 ^ 32.

(* u32 arithmetic of the debug profile: overflow is a panic. *)
Definition u32_mul (a b : N) : res N :=
  if a * b <? two32 then Ok (a * b) else Panic POverflow.
Definition u32_add (a b : N) : res N :=
  if a + b <? two32 then Ok (a + b) else Panic POverflow.

(* displace, names.rs:909-911: d2 + f1 * d1 + f2 with precedence (d2 + (f1 * d1)) + f2. *)
Definition displace (f1 f2 d1 d2 : N) : res N :=
  m <- u32_mul f1 d1 ;;
  a <- u32_add d2 m ;;
  u32_add a f2.

(* Slice index with bounds check. *)
Definition index {A} (l : list A) (i : N) : res A :=
  match nth_error l (N.to_nat i) with
  | Some a => Ok a
  | None => Panic PIndex
  end.

(* get_index, names.rs:892-896.  An empty table would panic (remainder by zero). *)
Definition get_index (h : N) (disps : list (N * N)) (len : N) : res N :=
  let '(g, f1, f2) := split h in
  if (N.of_nat (length disps) =? 0) || (len =? 0) then Panic POverflow else
  '(d1, d2) <- index disps (g mod N.of_nat (length disps)) ;;
  x <- displace f1 f2 d1 d2 ;;
  Ok (x mod len).

(* Map::get, names.rs:863-875. *)
Definition map_get {V} (key : N) (disps : list (N * N)) (entries : list (str * V)) (s : str)
  : res (option V) :=
  i <- get_index (hash s key) disps (N.of_nat (length entries)) ;;
  e <- index entries i ;;
  Ok (if str_eqb (fst e) s then Some (snd e) else None).

(* Map::key, names.rs:877-879. *)
Definition map_key {V} (eqb : V -> V -> bool) (entries : list (str * V)) (v : V) : res str :=
  match find (fun kv => eqb (snd kv) v) entries with
  | Some kv => Ok (fst kv)
  | None => Panic PUnwrap
  end.

(* ElementId::from_str, names.rs:198-200. *)
Definition element_from_str (s : str) : res (option eid) :=
  map_get elements_key elements_disps elements_entries s.
(* ElementId::as_str, names.rs:203-205. *)
Definition element_as_str (e : eid) : res str := map_key eid_eqb elements_entries e.
(* AttributeId::from_str, names.rs:830-832. *)
Definition attribute_from_str (s : str) : res (option aid) :=
  map_get attributes_key attributes_disps attributes_entries s.
(* AttributeId::as_str, names.rs:835-837. *)
Definition attribute_as_str (a : aid) : res str := map_key aid_eqb attributes_entries a.
