(* Specification of how the value of an SVG attribute is read: a table of keywords and types, following
   the attribute index of SVG 1.1. *)
From Coq Require Import String List Bool PeanoNat NArith.
From Verif Require Import Base Ids Data Text Parser.
Import ListNotations.
Open Scope string_scope.
Open Scope nat_scope.
Open Scope list_scope.

(* The types of values. *)
Inductive vtype :=
| TString | TLength | TOffset | TFontSize | TLengthList | TNumber | TUnit | TNumberList | TColor | TPaint | TIri
| TFuncIri | TPoints | TPath | TTransform | TAngle | TViewBox | TRatio.

(* Keywords, each with the value it stands for. *)
Definition none_ : string * avalue := ("none", VNone).
Definition inherit_ : string * avalue := ("inherit", VInherit).
Definition current_ : string * avalue := ("currentColor", VCurrentColor).
Definition word (s : string) : string * avalue := (s, VString (lit s)).

(* Attributes, the keywords they accept, and the type of their other values. *)
Definition table : list (list aid * list (string * avalue) * vtype) := [
  ([A_Href], [], TIri);
  ([A_X; A_Y; A_Dx; A_Dy; A_X1; A_Y1; A_X2; A_Y2; A_R; A_Rx; A_Ry; A_Cx; A_Cy; A_Fx; A_Fy; A_RefX; A_RefY; A_Width; A_Height;
    A_MarkerWidth; A_MarkerHeight; A_StartOffset], [], TLength);
  ([A_Offset], [], TOffset);
  ([A_StrokeWidth; A_StrokeDashoffset], [inherit_], TLength);
  ([A_LetterSpacing; A_WordSpacing], [inherit_; word "normal"], TLength);
  ([A_BaselineShift], [inherit_; word "baseline"; word "sub"; word "super"], TLength);
  ([A_FontSize], [], TFontSize);
  ([A_StrokeDasharray], [none_; inherit_], TLengthList);
  ([A_StrokeMiterlimit], [inherit_], TNumber);
  ([A_FontSizeAdjust], [none_; inherit_], TNumber);
  ([A_Opacity; A_FillOpacity; A_StrokeOpacity; A_StopOpacity; A_FloodOpacity], [inherit_], TUnit);
  ([A_K1; A_K2; A_K3; A_K4], [], TUnit);
  ([A_StdDeviation; A_BaseFrequency; A_Rotate], [], TNumberList);
  ([A_Fill; A_Stroke], [], TPaint);
  ([A_Color], [inherit_], TColor);
  ([A_StopColor; A_FloodColor; A_LightingColor], [inherit_; current_], TColor);
  ([A_ClipPath; A_Mask; A_Filter; A_Marker; A_MarkerStart; A_MarkerMid; A_MarkerEnd], [none_; inherit_], TFuncIri);
  ([A_Points], [], TPoints);
  ([A_D], [], TPath);
  ([A_Transform; A_GradientTransform; A_PatternTransform], [], TTransform);
  ([A_Orient], [word "auto"], TAngle);
  ([A_GlyphOrientationHorizontal], [inherit_], TAngle);
  ([A_GlyphOrientationVertical], [inherit_; word "auto"], TAngle);
  ([A_ViewBox], [], TViewBox);
  ([A_PreserveAspectRatio], [], TRatio);
  ([A_Display; A_PointerEvents; A_TextDecoration], [none_; inherit_], TString);
  ([A_ClipRule; A_ColorInterpolation; A_ColorInterpolationFilters; A_ColorProfile; A_ColorRendering; A_Direction;
    A_DominantBaseline; A_EnableBackground; A_FillRule; A_FontFamily; A_FontStretch; A_FontStyle; A_FontVariant; A_FontWeight;
    A_ImageRendering; A_Kerning; A_Overflow; A_ShapeRendering; A_StrokeLinecap; A_StrokeLinejoin; A_TextAnchor;
    A_TextRendering; A_UnicodeBidi; A_Visibility; A_WritingMode], [inherit_], TString)].

(* Coordinates of text elements are lists; in animation elements, fill is not a colour. *)
Definition text_positions (e : eid) : bool := match e with E_AltGlyph | E_Text | E_Tref | E_Tspan => true | _ => false end.
Definition animates (e : eid) : bool :=
  match e with E_Set | E_Animate | E_AnimateColor | E_AnimateMotion | E_AnimateTransform => true | _ => false end.

(* The keywords and the type of an attribute; all other attributes are strings. *)
Definition grammar (e : eid) (a : aid) : list (string * avalue) * vtype :=
  if text_positions e && existsb (aid_eqb a) [A_X; A_Y; A_Dx; A_Dy] then ([], TLengthList)
  else if animates e && aid_eqb a A_Fill then ([], TString)
  else match find (fun r => existsb (aid_eqb a) (fst (fst r))) table with
       | Some r => (snd (fst r), snd r)
       | None => ([], TString)
       end.

(* A value of some type, unless the text is invalid. *)
Definition checked {A} (o : option A) (f : A -> outcome) : outcome := match o with Some x => f x | None => OInvalid end.
(* A number and nothing behind it. *)
Definition whole_number (P : values) (s : str) : option f64 :=
  match p_number P s with Some (x, true) => Some x | _ => None end.
(* The path up to its first error. *)
Fixpoint until_error (l : list (option N)) : list N :=
  match l with Some x :: t => x :: until_error t | _ => [] end.

(* How a text without keyword is read, type by type.  Empty lists and paths, and transforms that do
   nothing, leave no value. *)
Definition read_type (P : values) (ty : vtype) (s : str) : outcome :=
  match ty with
  | TString => OValue (VString s)
  | TLength => checked (p_length P s) (fun l => OValue (VLength l))
  | TOffset => checked (p_length P s) (fun l => match len_unit l with UNone | UPercent => OValue (VLength l) | _ => OInvalid end)
  | TFontSize => match p_length P s with
                 | Some l => OValue (VLength l)
                 | None => OValue (if str_eqb s (lit "inherit") then VInherit else VString s)
                 end
  | TLengthList => checked (p_length_list P s) (fun p => if p_no_lengths P p then ONothing else OValue (VLengthList p))
  | TNumber => checked (whole_number P s) (fun x => OValue (VNumber x))
  | TUnit => checked (whole_number P s) (fun x => OValue (VNumber (f64_bound f_zero x f_one)))
  | TNumberList => checked (p_number_list P s) (fun p => if p_no_numbers P p then ONothing else OValue (VNumberList p))
  | TColor => checked (p_color P s) (fun c => OValue (VColor c))
  | TPaint => checked (p_paint P s) (fun x => match x with
                | PtNone => OValue VNone
                | PtInherit => OValue VInherit
                | PtCurrentColor => OValue VCurrentColor
                | PtColor c => OValue (VColor c)
                | PtIri iri fb => OLink iri fb
                end)
  | TIri => match p_iri P s with Some iri => OLink iri None | None => OValue (VString s) end
  | TFuncIri => checked (p_func_iri P s) (fun iri => OLink iri None)
  | TPoints => checked (p_points P s) (fun p => OValue (VPoints p))
  | TPath => let p := p_path P (until_error (p_segments P s)) in if p_no_path P p then ONothing else OValue (VPath p)
  | TTransform => checked (p_transform P s) (fun p => if p_identity P p then ONothing else OValue (VTransform p))
  | TAngle => checked (p_angle P s) (fun p => OValue (VAngle p))
  | TViewBox => checked (p_viewbox P s) (fun p => OValue (VViewBox p))
  | TRatio => checked (p_ratio P s) (fun p => OValue (VAspectRatio p))
  end.

(* White characters at both ends do not count, except in the attribute unicode. *)
Fixpoint drop_white (s : str) : str :=
  match s with
  | [] => []
  | c :: t => if is_white c then drop_white t else s
  end.
Definition bare (s : str) : str := rev (drop_white (rev (drop_white s))).

(* How the text [s] is read as value of the attribute [a] of an element [e]. *)
Definition read_value (P : values) (e : eid) (a : aid) (s : str) : outcome :=
  let s := match a with A_Unicode => s | _ => bare s end in
  let (words, ty) := grammar e a in
  match find (fun w => str_eqb s (lit (fst w))) words with
  | Some w => OValue (snd w)
  | None => read_type P ty s
  end.

(* The kind of a value, without its content. *)
Inductive kind :=
| KNone | KInherit | KCurrentColor | KString | KNumber | KNumberList | KLength | KLengthList | KAngle | KTransform | KPath
| KPoints | KLink | KFuncLink | KPaint | KColor | KViewBox | KRatio.
Definition kind_of (v : avalue) : kind :=
  match v with
  | VNone => KNone | VInherit => KInherit | VCurrentColor => KCurrentColor | VString _ => KString | VNumber _ => KNumber
  | VNumberList _ => KNumberList | VLength _ => KLength | VLengthList _ => KLengthList | VAngle _ => KAngle
  | VTransform _ => KTransform | VPath _ => KPath | VPoints _ => KPoints | VLink _ => KLink | VFuncLink _ => KFuncLink
  | VPaint _ _ => KPaint | VColor _ => KColor | VViewBox _ => KViewBox | VAspectRatio _ => KRatio
  end.

(* The kinds of values of a type, with references resolved: a reference without target is kept as
   text, or replaced by its fallback. *)
Definition type_kinds (ty : vtype) : list kind :=
  match ty with
  | TString => [KString]
  | TLength | TOffset => [KLength]
  | TFontSize => [KLength; KInherit; KString]
  | TLengthList => [KLengthList]
  | TNumber | TUnit => [KNumber]
  | TNumberList => [KNumberList]
  | TColor => [KColor]
  | TPaint => [KNone; KInherit; KCurrentColor; KColor; KPaint; KString]
  | TIri => [KLink; KString]
  | TFuncIri => [KFuncLink; KString]
  | TPoints => [KPoints]
  | TPath => [KPath]
  | TTransform => [KTransform]
  | TAngle => [KAngle]
  | TViewBox => [KViewBox]
  | TRatio => [KRatio]
  end.
Definition kinds (e : eid) (a : aid) : list kind :=
  map (fun w => kind_of (snd w)) (fst (grammar e a)) ++ type_kinds (snd (grammar e a)).
