(* Generated by tools/gen_types.py from /repo/src/attribute_type.rs, element_type.rs and
   attribute_value.rs.  Do not edit. *)
From Coq Require Import List Bool NArith ZArith String.
From Coq Require Import SpecFloat.
From Verif Require Import Base Ids Data NodeApi.
Import ListNotations.
Open Scope string_scope.

(* is_non_inheritable, attribute_type.rs:246-269. *)
Definition is_non_inheritable (id : aid) : bool :=
  match id with
  | A_AlignmentBaseline
  | A_BaselineShift
  | A_Clip
  | A_ClipPath
  | A_Display
  | A_DominantBaseline
  | A_EnableBackground
  | A_Filter
  | A_FloodColor
  | A_FloodOpacity
  | A_LightingColor
  | A_Mask
  | A_Opacity
  | A_Overflow
  | A_StopColor
  | A_StopOpacity
  | A_TextDecoration
  | A_UnicodeBidi
  | A_Visibility => true
  | _ => false
  end.

(* AttributeId::is_presentation, attribute_type.rs:83-148. *)
Definition is_presentation (id : aid) : bool :=
  match id with
  | A_AlignmentBaseline
  | A_BaselineShift
  | A_Clip
  | A_ClipPath
  | A_ClipRule
  | A_Color
  | A_ColorInterpolation
  | A_ColorInterpolationFilters
  | A_ColorProfile
  | A_ColorRendering
  | A_Cursor
  | A_Direction
  | A_Display
  | A_DominantBaseline
  | A_EnableBackground
  | A_Fill
  | A_FillOpacity
  | A_FillRule
  | A_Filter
  | A_FloodColor
  | A_FloodOpacity
  | A_Font
  | A_FontFamily
  | A_FontSize
  | A_FontSizeAdjust
  | A_FontStretch
  | A_FontStyle
  | A_FontVariant
  | A_FontWeight
  | A_GlyphOrientationHorizontal
  | A_GlyphOrientationVertical
  | A_ImageRendering
  | A_Kerning
  | A_LetterSpacing
  | A_LightingColor
  | A_Marker
  | A_MarkerEnd
  | A_MarkerMid
  | A_MarkerStart
  | A_Mask
  | A_Opacity
  | A_Overflow
  | A_PointerEvents
  | A_ShapeRendering
  | A_StopColor
  | A_StopOpacity
  | A_Stroke
  | A_StrokeDasharray
  | A_StrokeDashoffset
  | A_StrokeLinecap
  | A_StrokeLinejoin
  | A_StrokeMiterlimit
  | A_StrokeOpacity
  | A_StrokeWidth
  | A_TextAnchor
  | A_TextDecoration
  | A_TextRendering
  | A_UnicodeBidi
  | A_Visibility
  | A_WordSpacing
  | A_WritingMode => true
  | _ => false
  end.

(* AttributeId::is_inheritable, attribute_type.rs:150-156. *)
Definition is_inheritable (id : aid) : bool :=
  if is_presentation id then negb (is_non_inheritable id) else false.

(* AttributeId::is_animation_event, attribute_type.rs:158-166. *)
Definition is_animation_event (id : aid) : bool :=
  match id with
  | A_Onbegin
  | A_Onend
  | A_Onload
  | A_Onrepeat => true
  | _ => false
  end.

(* AttributeId::is_graphical_event, attribute_type.rs:168-182. *)
Definition is_graphical_event (id : aid) : bool :=
  match id with
  | A_Onactivate
  | A_Onclick
  | A_Onfocusin
  | A_Onfocusout
  | A_Onload
  | A_Onmousedown
  | A_Onmousemove
  | A_Onmouseout
  | A_Onmouseover
  | A_Onmouseup => true
  | _ => false
  end.

(* AttributeId::is_document_event, attribute_type.rs:184-194. *)
Definition is_document_event (id : aid) : bool :=
  match id with
  | A_Onabort
  | A_Onerror
  | A_Onresize
  | A_Onscroll
  | A_Onunload
  | A_Onzoom => true
  | _ => false
  end.

(* AttributeId::is_conditional_processing, attribute_type.rs:196-203. *)
Definition is_conditional_processing (id : aid) : bool :=
  match id with
  | A_RequiredExtensions
  | A_RequiredFeatures
  | A_SystemLanguage => true
  | _ => false
  end.

(* AttributeId::is_core, attribute_type.rs:205-212. *)
Definition is_core (id : aid) : bool :=
  match id with
  | A_Base
  | A_Lang
  | A_Space => true
  | _ => false
  end.

(* AttributeId::is_fill, attribute_type.rs:214-221. *)
Definition is_fill (id : aid) : bool :=
  match id with
  | A_Fill
  | A_FillOpacity
  | A_FillRule => true
  | _ => false
  end.

(* AttributeId::is_stroke, attribute_type.rs:223-235. *)
Definition is_stroke (id : aid) : bool :=
  match id with
  | A_Stroke
  | A_StrokeDasharray
  | A_StrokeDashoffset
  | A_StrokeLinecap
  | A_StrokeLinejoin
  | A_StrokeMiterlimit
  | A_StrokeOpacity
  | A_StrokeWidth => true
  | _ => false
  end.

(* The same functions for Attribute, attribute_type.rs:58-80; id() is attribute.rs:51-56. *)
Definition of_attr (f : aid -> bool) (a : attr) : bool :=
  match a_name a with QId id => f id | QName _ => false end.

Definition attr_is_presentation (a : attr) : bool := of_attr is_presentation a.
Definition attr_is_inheritable (a : attr) : bool := of_attr is_inheritable a.
Definition attr_is_animation_event (a : attr) : bool := of_attr is_animation_event a.
Definition attr_is_graphical_event (a : attr) : bool := of_attr is_graphical_event a.
Definition attr_is_document_event (a : attr) : bool := of_attr is_document_event a.
Definition attr_is_conditional_processing (a : attr) : bool := of_attr is_conditional_processing a.
Definition attr_is_core (a : attr) : bool := of_attr is_core a.
Definition attr_is_fill (a : attr) : bool := of_attr is_fill a.
Definition attr_is_stroke (a : attr) : bool := of_attr is_stroke a.

(* ElementType::is_referenced, element_type.rs:123-133. *)
Definition eid_is_referenced (id : eid) : bool :=
  match id with
  | E_AltGlyphDef
  | E_ClipPath
  | E_Cursor
  | E_Filter
  | E_LinearGradient
  | E_Marker
  | E_Mask
  | E_Pattern
  | E_RadialGradient
  | E_Symbol => true
  | _ => false
  end.

(* ElementType::is_basic_shape, element_type.rs:135-141. *)
Definition eid_is_basic_shape (id : eid) : bool :=
  match id with
  | E_Rect
  | E_Circle
  | E_Ellipse
  | E_Line
  | E_Polyline
  | E_Polygon => true
  | _ => false
  end.

(* ElementType::is_shape, element_type.rs:143-150. *)
Definition eid_is_shape (id : eid) : bool :=
  match id with
  | E_Circle
  | E_Ellipse
  | E_Line
  | E_Path
  | E_Polygon
  | E_Polyline
  | E_Rect => true
  | _ => false
  end.

(* ElementType::is_container, element_type.rs:152-163. *)
Definition eid_is_container (id : eid) : bool :=
  match id with
  | E_A
  | E_Defs
  | E_Glyph
  | E_G
  | E_Marker
  | E_Mask
  | E_MissingGlyph
  | E_Pattern
  | E_Svg
  | E_Switch
  | E_Symbol => true
  | _ => false
  end.

(* ElementType::is_text_content, element_type.rs:165-170. *)
Definition eid_is_text_content (id : eid) : bool :=
  match id with
  | E_AltGlyph
  | E_TextPath
  | E_Text
  | E_Tref
  | E_Tspan => true
  | _ => false
  end.

(* ElementType::is_text_content_child, element_type.rs:172-176. *)
Definition eid_is_text_content_child (id : eid) : bool :=
  match id with
  | E_AltGlyph
  | E_TextPath
  | E_Tref
  | E_Tspan => true
  | _ => false
  end.

(* ElementType::is_graphic, element_type.rs:178-188. *)
Definition eid_is_graphic (id : eid) : bool :=
  match id with
  | E_Circle
  | E_Ellipse
  | E_Image
  | E_Line
  | E_Path
  | E_Polygon
  | E_Polyline
  | E_Rect
  | E_Text
  | E_Use => true
  | _ => false
  end.

(* ElementType::is_gradient, element_type.rs:190-192. *)
Definition eid_is_gradient (id : eid) : bool :=
  match id with
  | E_LinearGradient
  | E_RadialGradient => true
  | _ => false
  end.

(* ElementType::is_paint_server, element_type.rs:194-197. *)
Definition eid_is_paint_server (id : eid) : bool :=
  match id with
  | E_LinearGradient
  | E_RadialGradient
  | E_Pattern => true
  | _ => false
  end.

(* ElementType::is_filter_primitive, element_type.rs:199-215. *)
Definition eid_is_filter_primitive (id : eid) : bool :=
  match id with
  | E_FeBlend
  | E_FeColorMatrix
  | E_FeComponentTransfer
  | E_FeComposite
  | E_FeConvolveMatrix
  | E_FeDiffuseLighting
  | E_FeDisplacementMap
  | E_FeFlood
  | E_FeGaussianBlur
  | E_FeImage
  | E_FeMerge
  | E_FeMorphology
  | E_FeOffset
  | E_FeSpecularLighting
  | E_FeTile
  | E_FeTurbulence => true
  | _ => false
  end.

(* The macro is_func, element_type.rs:107-120. *)
Definition of_node (f : eid -> bool) (D : dom) (n : nid) : bool :=
  match tag_id D n with Some id => f id | None => false end.

Definition node_is_referenced (D : dom) (n : nid) : bool := of_node eid_is_referenced D n.
Definition node_is_basic_shape (D : dom) (n : nid) : bool := of_node eid_is_basic_shape D n.
Definition node_is_shape (D : dom) (n : nid) : bool := of_node eid_is_shape D n.
Definition node_is_container (D : dom) (n : nid) : bool := of_node eid_is_container D n.
Definition node_is_text_content (D : dom) (n : nid) : bool := of_node eid_is_text_content D n.
Definition node_is_text_content_child (D : dom) (n : nid) : bool := of_node eid_is_text_content_child D n.
Definition node_is_graphic (D : dom) (n : nid) : bool := of_node eid_is_graphic D n.
Definition node_is_gradient (D : dom) (n : nid) : bool := of_node eid_is_gradient D n.
Definition node_is_paint_server (D : dom) (n : nid) : bool := of_node eid_is_paint_server D n.
Definition node_is_filter_primitive (D : dom) (n : nid) : bool := of_node eid_is_filter_primitive D n.

(* AttributeValue::default_value, attribute_value.rs:166-236.  The From instances are those of
   attribute_value.rs:50-113. *)
Definition default_value (id : aid) : option avalue :=
  match id with
  | A_AlignmentBaseline | A_Clip | A_ColorProfile | A_ColorRendering | A_Cursor | A_DominantBaseline | A_GlyphOrientationVertical | A_ImageRendering | A_Kerning | A_ShapeRendering | A_TextRendering => Some (VString (lit "auto"))
  | A_ClipPath | A_Filter | A_FontSizeAdjust | A_Marker | A_MarkerEnd | A_MarkerMid | A_MarkerStart | A_Mask | A_Stroke | A_StrokeDasharray | A_TextDecoration => Some VNone
  | A_FontStretch | A_FontStyle | A_FontVariant | A_FontWeight | A_LetterSpacing | A_UnicodeBidi | A_WordSpacing => Some (VString (lit "normal"))
  | A_Fill | A_FloodColor | A_StopColor => Some (VColor (mkColor 0 0 0)%N)
  | A_FillOpacity | A_FloodOpacity | A_Opacity | A_StopOpacity | A_StrokeOpacity => Some (VNumber (S754_finite false 4503599627370496%positive (-52)%Z))
  | A_ClipRule | A_FillRule => Some (VString (lit "nonzero"))
  | A_BaselineShift => Some (VString (lit "baseline"))
  | A_ColorInterpolation => Some (VString (lit "sRGB"))
  | A_ColorInterpolationFilters => Some (VString (lit "linearRGB"))
  | A_Direction => Some (VString (lit "ltr"))
  | A_Display => Some (VString (lit "inline"))
  | A_EnableBackground => Some (VString (lit "accumulate"))
  | A_FontSize => Some (VString (lit "medium"))
  | A_GlyphOrientationHorizontal => Some (VString (lit "0deg"))
  | A_LightingColor => Some (VColor (mkColor 255 255 255)%N)
  | A_StrokeDashoffset => Some (VLength (mkLength (S754_zero false) UNone))
  | A_StrokeLinecap => Some (VString (lit "butt"))
  | A_StrokeLinejoin => Some (VString (lit "miter"))
  | A_StrokeMiterlimit => Some (VLength (mkLength (S754_finite false 4503599627370496%positive (-50)%Z) UNone))
  | A_StrokeWidth => Some (VLength (mkLength (S754_finite false 4503599627370496%positive (-52)%Z) UNone))
  | A_TextAnchor => Some (VString (lit "start"))
  | A_Visibility => Some (VString (lit "visible"))
  | A_WritingMode => Some (VString (lit "lr-tb"))
  | _ => None
  end.
