(* Specification of the initial values of attributes, and of the tests on values. *)
From Coq Require Import String List Bool NArith ZArith.
From Coq Require Import SpecFloat.
From Verif Require Import Base Ids Data Parser ValueSpec.
Import ListNotations.
Open Scope string_scope.
Open Scope list_scope.

(* The property index of SVG 1.1: names of properties, their initial value as text, and the value that
   the text stands for.  The index has no fixed value for color, font, font-family and overflow. *)
Definition one : f64 := S754_finite false 4503599627370496 (-52).
Definition four : f64 := S754_finite false 4503599627370496 (-50).
Definition initial_values : list (list string * string * avalue) := [
  (["alignment-baseline"; "clip"; "color-profile"; "color-rendering"; "cursor"; "dominant-baseline"; "glyph-orientation-vertical";
    "image-rendering"; "kerning"; "shape-rendering"; "text-rendering"], "auto", VString (lit "auto"));
  (["clip-path"; "filter"; "font-size-adjust"; "marker"; "marker-end"; "marker-mid"; "marker-start"; "mask"; "stroke";
    "stroke-dasharray"; "text-decoration"], "none", VNone);
  (["font-stretch"; "font-style"; "font-variant"; "font-weight"; "letter-spacing"; "unicode-bidi"; "word-spacing"], "normal",
    VString (lit "normal"));
  (["fill"; "flood-color"; "stop-color"], "black", VColor (mkColor 0 0 0));
  (["lighting-color"], "white", VColor (mkColor 255 255 255));
  (["fill-opacity"; "flood-opacity"; "opacity"; "stop-opacity"; "stroke-opacity"], "1", VNumber one);
  (["clip-rule"; "fill-rule"], "nonzero", VString (lit "nonzero"));
  (["baseline-shift"], "baseline", VString (lit "baseline"));
  (["color-interpolation"], "sRGB", VString (lit "sRGB"));
  (["color-interpolation-filters"], "linearRGB", VString (lit "linearRGB"));
  (["direction"], "ltr", VString (lit "ltr"));
  (["display"], "inline", VString (lit "inline"));
  (["enable-background"], "accumulate", VString (lit "accumulate"));
  (["font-size"], "medium", VString (lit "medium"));
  (["glyph-orientation-horizontal"], "0deg", VString (lit "0deg"));
  (["stroke-dashoffset"], "0", VLength (mkLength (S754_zero false) UNone));
  (["stroke-linecap"], "butt", VString (lit "butt"));
  (["stroke-linejoin"], "miter", VString (lit "miter"));
  (["stroke-miterlimit"], "4", VLength (mkLength four UNone));
  (["stroke-width"], "1", VLength (mkLength one UNone));
  (["text-anchor"], "start", VString (lit "start"));
  (["visibility"], "visible", VString (lit "visible"));
  (["writing-mode"], "lr-tb", VString (lit "lr-tb"))].
Definition initial (name : str) : option (string * avalue) :=
  match find (fun r => existsb (fun x => str_eqb name (lit x)) (fst (fst r))) initial_values with
  | Some r => Some (snd (fst r), snd r)
  | None => None
  end.

(* The crates read the numbers and colours of the index. *)
Definition reads_constants (P : values) : Prop :=
  p_length P (lit "0") = Some (mkLength (S754_zero false) UNone) /\ p_length P (lit "1") = Some (mkLength one UNone) /\
  p_length P (lit "medium") = None /\ p_number P (lit "1") = Some (one, true) /\
  p_color P (lit "black") = Some (mkColor 0 0 0) /\ p_color P (lit "white") = Some (mkColor 255 255 255) /\
  p_paint P (lit "black") = Some (PtColor (mkColor 0 0 0)) /\ p_paint P (lit "none") = Some PtNone.

(* A double is the integer [z]: the signed mantissa times a power of two, here always a negative one. *)
Definition is_int (x : f64) (z : Z) : Prop :=
  match x with
  | S754_zero s => s = false /\ z = 0%Z
  | S754_finite s m e => (e <= 0 /\ z * 2 ^ (- e) = (if s then Z.neg m else Z.pos m))%Z
  | _ => False
  end.

(* A conversion into values of kind [k] that gives different values for different things. *)
Definition keeps_all {A} (f : A -> avalue) (k : kind) : Prop := (forall x, kind_of (f x) = k) /\ forall x y, f x = f y -> x = y.
