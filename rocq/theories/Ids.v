(* Generated by tools/gen_names.py from /repo/src/names.rs.  Do not edit. *)
From Coq Require Import List NArith.
Import ListNotations.

(* enum ElementId, names.rs:9-90, in declaration order. *)
Inductive eid :=
| E_A
| E_AltGlyph
| E_AltGlyphDef
| E_AltGlyphItem
| E_Animate
| E_AnimateColor
| E_AnimateMotion
| E_AnimateTransform
| E_Circle
| E_ClipPath
| E_ColorProfile
| E_Cursor
| E_Defs
| E_Desc
| E_Ellipse
| E_FeBlend
| E_FeColorMatrix
| E_FeComponentTransfer
| E_FeComposite
| E_FeConvolveMatrix
| E_FeDiffuseLighting
| E_FeDisplacementMap
| E_FeDistantLight
| E_FeFlood
| E_FeFuncA
| E_FeFuncB
| E_FeFuncG
| E_FeFuncR
| E_FeGaussianBlur
| E_FeImage
| E_FeMerge
| E_FeMergeNode
| E_FeMorphology
| E_FeOffset
| E_FePointLight
| E_FeSpecularLighting
| E_FeSpotLight
| E_FeTile
| E_FeTurbulence
| E_Filter
| E_Font
| E_FontFace
| E_FontFaceFormat
| E_FontFaceName
| E_FontFaceSrc
| E_FontFaceUri
| E_ForeignObject
| E_G
| E_Glyph
| E_GlyphRef
| E_Hkern
| E_Image
| E_Line
| E_LinearGradient
| E_Marker
| E_Mask
| E_Metadata
| E_MissingGlyph
| E_Mpath
| E_Path
| E_Pattern
| E_Polygon
| E_Polyline
| E_RadialGradient
| E_Rect
| E_Script
| E_Set
| E_Stop
| E_Style
| E_Svg
| E_Switch
| E_Symbol
| E_Text
| E_TextPath
| E_Title
| E_Tref
| E_Tspan
| E_Use
| E_View
| E_Vkern.

(* The discriminant, `id as usize`. *)
Definition eid_idx (x : eid) : N :=
  match x with
  | E_A => 0
  | E_AltGlyph => 1
  | E_AltGlyphDef => 2
  | E_AltGlyphItem => 3
  | E_Animate => 4
  | E_AnimateColor => 5
  | E_AnimateMotion => 6
  | E_AnimateTransform => 7
  | E_Circle => 8
  | E_ClipPath => 9
  | E_ColorProfile => 10
  | E_Cursor => 11
  | E_Defs => 12
  | E_Desc => 13
  | E_Ellipse => 14
  | E_FeBlend => 15
  | E_FeColorMatrix => 16
  | E_FeComponentTransfer => 17
  | E_FeComposite => 18
  | E_FeConvolveMatrix => 19
  | E_FeDiffuseLighting => 20
  | E_FeDisplacementMap => 21
  | E_FeDistantLight => 22
  | E_FeFlood => 23
  | E_FeFuncA => 24
  | E_FeFuncB => 25
  | E_FeFuncG => 26
  | E_FeFuncR => 27
  | E_FeGaussianBlur => 28
  | E_FeImage => 29
  | E_FeMerge => 30
  | E_FeMergeNode => 31
  | E_FeMorphology => 32
  | E_FeOffset => 33
  | E_FePointLight => 34
  | E_FeSpecularLighting => 35
  | E_FeSpotLight => 36
  | E_FeTile => 37
  | E_FeTurbulence => 38
  | E_Filter => 39
  | E_Font => 40
  | E_FontFace => 41
  | E_FontFaceFormat => 42
  | E_FontFaceName => 43
  | E_FontFaceSrc => 44
  | E_FontFaceUri => 45
  | E_ForeignObject => 46
  | E_G => 47
  | E_Glyph => 48
  | E_GlyphRef => 49
  | E_Hkern => 50
  | E_Image => 51
  | E_Line => 52
  | E_LinearGradient => 53
  | E_Marker => 54
  | E_Mask => 55
  | E_Metadata => 56
  | E_MissingGlyph => 57
  | E_Mpath => 58
  | E_Path => 59
  | E_Pattern => 60
  | E_Polygon => 61
  | E_Polyline => 62
  | E_RadialGradient => 63
  | E_Rect => 64
  | E_Script => 65
  | E_Set => 66
  | E_Stop => 67
  | E_Style => 68
  | E_Svg => 69
  | E_Switch => 70
  | E_Symbol => 71
  | E_Text => 72
  | E_TextPath => 73
  | E_Title => 74
  | E_Tref => 75
  | E_Tspan => 76
  | E_Use => 77
  | E_View => 78
  | E_Vkern => 79
  end%N.

Definition all_eids : list eid :=
  [E_A;
   E_AltGlyph;
   E_AltGlyphDef;
   E_AltGlyphItem;
   E_Animate;
   E_AnimateColor;
   E_AnimateMotion;
   E_AnimateTransform;
   E_Circle;
   E_ClipPath;
   E_ColorProfile;
   E_Cursor;
   E_Defs;
   E_Desc;
   E_Ellipse;
   E_FeBlend;
   E_FeColorMatrix;
   E_FeComponentTransfer;
   E_FeComposite;
   E_FeConvolveMatrix;
   E_FeDiffuseLighting;
   E_FeDisplacementMap;
   E_FeDistantLight;
   E_FeFlood;
   E_FeFuncA;
   E_FeFuncB;
   E_FeFuncG;
   E_FeFuncR;
   E_FeGaussianBlur;
   E_FeImage;
   E_FeMerge;
   E_FeMergeNode;
   E_FeMorphology;
   E_FeOffset;
   E_FePointLight;
   E_FeSpecularLighting;
   E_FeSpotLight;
   E_FeTile;
   E_FeTurbulence;
   E_Filter;
   E_Font;
   E_FontFace;
   E_FontFaceFormat;
   E_FontFaceName;
   E_FontFaceSrc;
   E_FontFaceUri;
   E_ForeignObject;
   E_G;
   E_Glyph;
   E_GlyphRef;
   E_Hkern;
   E_Image;
   E_Line;
   E_LinearGradient;
   E_Marker;
   E_Mask;
   E_Metadata;
   E_MissingGlyph;
   E_Mpath;
   E_Path;
   E_Pattern;
   E_Polygon;
   E_Polyline;
   E_RadialGradient;
   E_Rect;
   E_Script;
   E_Set;
   E_Stop;
   E_Style;
   E_Svg;
   E_Switch;
   E_Symbol;
   E_Text;
   E_TextPath;
   E_Title;
   E_Tref;
   E_Tspan;
   E_Use;
   E_View;
   E_Vkern].

(* derive(PartialEq) of ElementId, names.rs:7: equality of discriminants. *)
Definition eid_eqb (a b : eid) : bool := N.eqb (eid_idx a) (eid_idx b).

(* enum AttributeId, names.rs:223-494, in declaration order. *)
Inductive aid :=
| A_AccentHeight
| A_Accumulate
| A_Actuate
| A_Additive
| A_AlignmentBaseline
| A_Alphabetic
| A_Amplitude
| A_ArabicForm
| A_Arcrole
| A_Ascent
| A_AttributeName
| A_AttributeType
| A_Azimuth
| A_Base
| A_BaseFrequency
| A_BaselineShift
| A_BaseProfile
| A_Bbox
| A_Begin
| A_Bias
| A_By
| A_CalcMode
| A_CapHeight
| A_Class
| A_Clip
| A_ClipPath
| A_ClipRule
| A_ClipPathUnits
| A_Color
| A_ColorInterpolation
| A_ColorInterpolationFilters
| A_ColorProfile
| A_ColorRendering
| A_ContentScriptType
| A_ContentStyleType
| A_Cursor
| A_Cx
| A_Cy
| A_D
| A_Descent
| A_DiffuseConstant
| A_Direction
| A_Display
| A_Divisor
| A_DominantBaseline
| A_Dur
| A_Dx
| A_Dy
| A_EdgeMode
| A_Elevation
| A_EnableBackground
| A_Encoding
| A_End
| A_Exponent
| A_ExternalResourcesRequired
| A_Fill
| A_FillOpacity
| A_FillRule
| A_Filter
| A_FilterRes
| A_FilterUnits
| A_FloodColor
| A_FloodOpacity
| A_Font
| A_FontFamily
| A_FontSize
| A_FontSizeAdjust
| A_FontStretch
| A_FontStyle
| A_FontVariant
| A_FontWeight
| A_Format
| A_From
| A_Fx
| A_Fy
| A_G1
| A_G2
| A_GlyphName
| A_GlyphOrientationHorizontal
| A_GlyphOrientationVertical
| A_GlyphRef
| A_GradientTransform
| A_GradientUnits
| A_Hanging
| A_Height
| A_HorizAdvX
| A_HorizOriginX
| A_HorizOriginY
| A_Href
| A_Id
| A_Ideographic
| A_ImageRendering
| A_In
| A_In2
| A_Intercept
| A_K
| A_K1
| A_K2
| A_K3
| A_K4
| A_KernelMatrix
| A_KernelUnitLength
| A_Kerning
| A_KeyPoints
| A_KeySplines
| A_KeyTimes
| A_Lang
| A_LengthAdjust
| A_LetterSpacing
| A_LightingColor
| A_LimitingConeAngle
| A_LineHeight
| A_Local
| A_Marker
| A_MarkerEnd
| A_MarkerMid
| A_MarkerStart
| A_MarkerHeight
| A_MarkerUnits
| A_MarkerWidth
| A_Mask
| A_MaskContentUnits
| A_MaskUnits
| A_Mathematical
| A_Max
| A_Media
| A_Method
| A_Min
| A_Mode
| A_Name
| A_NumOctaves
| A_Offset
| A_Onabort
| A_Onactivate
| A_Onbegin
| A_Onclick
| A_Onend
| A_Onerror
| A_Onfocusin
| A_Onfocusout
| A_Onload
| A_Onmousedown
| A_Onmousemove
| A_Onmouseout
| A_Onmouseover
| A_Onmouseup
| A_Onrepeat
| A_Onresize
| A_Onscroll
| A_Onunload
| A_Onzoom
| A_Opacity
| A_Operator
| A_Order
| A_Orient
| A_Orientation
| A_Origin
| A_Overflow
| A_OverlinePosition
| A_OverlineThickness
| A_Panose1
| A_Path
| A_PathLength
| A_PatternContentUnits
| A_PatternTransform
| A_PatternUnits
| A_PointerEvents
| A_Points
| A_PointsAtX
| A_PointsAtY
| A_PointsAtZ
| A_PreserveAlpha
| A_PreserveAspectRatio
| A_PrimitiveUnits
| A_R
| A_Radius
| A_RefX
| A_RefY
| A_RenderingIntent
| A_RepeatCount
| A_RepeatDur
| A_RequiredExtensions
| A_RequiredFeatures
| A_Restart
| A_Result
| A_Role
| A_Rotate
| A_Rx
| A_Ry
| A_Scale
| A_Seed
| A_ShapeRendering
| A_Show
| A_Slope
| A_Space
| A_Spacing
| A_SpecularConstant
| A_SpecularExponent
| A_SpreadMethod
| A_Standalone
| A_StartOffset
| A_StdDeviation
| A_Stemh
| A_Stemv
| A_StitchTiles
| A_StopColor
| A_StopOpacity
| A_StrikethroughPosition
| A_StrikethroughThickness
| A_String
| A_Stroke
| A_StrokeDasharray
| A_StrokeDashoffset
| A_StrokeLinecap
| A_StrokeLinejoin
| A_StrokeMiterlimit
| A_StrokeOpacity
| A_StrokeWidth
| A_Style
| A_SurfaceScale
| A_SystemLanguage
| A_TableValues
| A_Target
| A_TargetX
| A_TargetY
| A_TextAnchor
| A_TextDecoration
| A_TextRendering
| A_TextLength
| A_Title
| A_To
| A_Transform
| A_Type
| A_U1
| A_U2
| A_UnderlinePosition
| A_UnderlineThickness
| A_Unicode
| A_UnicodeBidi
| A_UnicodeRange
| A_UnitsPerEm
| A_VAlphabetic
| A_VHanging
| A_VIdeographic
| A_VMathematical
| A_Values
| A_Version
| A_VertAdvY
| A_VertOriginX
| A_VertOriginY
| A_ViewBox
| A_ViewTarget
| A_Visibility
| A_Width
| A_Widths
| A_WordSpacing
| A_WritingMode
| A_X
| A_XHeight
| A_X1
| A_X2
| A_XChannelSelector
| A_Xlink
| A_Xmlns
| A_Y
| A_Y1
| A_Y2
| A_YChannelSelector
| A_Z
| A_ZoomAndPan.

(* The discriminant, `id as usize`. *)
Definition aid_idx (x : aid) : N :=
  match x with
  | A_AccentHeight => 0
  | A_Accumulate => 1
  | A_Actuate => 2
  | A_Additive => 3
  | A_AlignmentBaseline => 4
  | A_Alphabetic => 5
  | A_Amplitude => 6
  | A_ArabicForm => 7
  | A_Arcrole => 8
  | A_Ascent => 9
  | A_AttributeName => 10
  | A_AttributeType => 11
  | A_Azimuth => 12
  | A_Base => 13
  | A_BaseFrequency => 14
  | A_BaselineShift => 15
  | A_BaseProfile => 16
  | A_Bbox => 17
  | A_Begin => 18
  | A_Bias => 19
  | A_By => 20
  | A_CalcMode => 21
  | A_CapHeight => 22
  | A_Class => 23
  | A_Clip => 24
  | A_ClipPath => 25
  | A_ClipRule => 26
  | A_ClipPathUnits => 27
  | A_Color => 28
  | A_ColorInterpolation => 29
  | A_ColorInterpolationFilters => 30
  | A_ColorProfile => 31
  | A_ColorRendering => 32
  | A_ContentScriptType => 33
  | A_ContentStyleType => 34
  | A_Cursor => 35
  | A_Cx => 36
  | A_Cy => 37
  | A_D => 38
  | A_Descent => 39
  | A_DiffuseConstant => 40
  | A_Direction => 41
  | A_Display => 42
  | A_Divisor => 43
  | A_DominantBaseline => 44
  | A_Dur => 45
  | A_Dx => 46
  | A_Dy => 47
  | A_EdgeMode => 48
  | A_Elevation => 49
  | A_EnableBackground => 50
  | A_Encoding => 51
  | A_End => 52
  | A_Exponent => 53
  | A_ExternalResourcesRequired => 54
  | A_Fill => 55
  | A_FillOpacity => 56
  | A_FillRule => 57
  | A_Filter => 58
  | A_FilterRes => 59
  | A_FilterUnits => 60
  | A_FloodColor => 61
  | A_FloodOpacity => 62
  | A_Font => 63
  | A_FontFamily => 64
  | A_FontSize => 65
  | A_FontSizeAdjust => 66
  | A_FontStretch => 67
  | A_FontStyle => 68
  | A_FontVariant => 69
  | A_FontWeight => 70
  | A_Format => 71
  | A_From => 72
  | A_Fx => 73
  | A_Fy => 74
  | A_G1 => 75
  | A_G2 => 76
  | A_GlyphName => 77
  | A_GlyphOrientationHorizontal => 78
  | A_GlyphOrientationVertical => 79
  | A_GlyphRef => 80
  | A_GradientTransform => 81
  | A_GradientUnits => 82
  | A_Hanging => 83
  | A_Height => 84
  | A_HorizAdvX => 85
  | A_HorizOriginX => 86
  | A_HorizOriginY => 87
  | A_Href => 88
  | A_Id => 89
  | A_Ideographic => 90
  | A_ImageRendering => 91
  | A_In => 92
  | A_In2 => 93
  | A_Intercept => 94
  | A_K => 95
  | A_K1 => 96
  | A_K2 => 97
  | A_K3 => 98
  | A_K4 => 99
  | A_KernelMatrix => 100
  | A_KernelUnitLength => 101
  | A_Kerning => 102
  | A_KeyPoints => 103
  | A_KeySplines => 104
  | A_KeyTimes => 105
  | A_Lang => 106
  | A_LengthAdjust => 107
  | A_LetterSpacing => 108
  | A_LightingColor => 109
  | A_LimitingConeAngle => 110
  | A_LineHeight => 111
  | A_Local => 112
  | A_Marker => 113
  | A_MarkerEnd => 114
  | A_MarkerMid => 115
  | A_MarkerStart => 116
  | A_MarkerHeight => 117
  | A_MarkerUnits => 118
  | A_MarkerWidth => 119
  | A_Mask => 120
  | A_MaskContentUnits => 121
  | A_MaskUnits => 122
  | A_Mathematical => 123
  | A_Max => 124
  | A_Media => 125
  | A_Method => 126
  | A_Min => 127
  | A_Mode => 128
  | A_Name => 129
  | A_NumOctaves => 130
  | A_Offset => 131
  | A_Onabort => 132
  | A_Onactivate => 133
  | A_Onbegin => 134
  | A_Onclick => 135
  | A_Onend => 136
  | A_Onerror => 137
  | A_Onfocusin => 138
  | A_Onfocusout => 139
  | A_Onload => 140
  | A_Onmousedown => 141
  | A_Onmousemove => 142
  | A_Onmouseout => 143
  | A_Onmouseover => 144
  | A_Onmouseup => 145
  | A_Onrepeat => 146
  | A_Onresize => 147
  | A_Onscroll => 148
  | A_Onunload => 149
  | A_Onzoom => 150
  | A_Opacity => 151
  | A_Operator => 152
  | A_Order => 153
  | A_Orient => 154
  | A_Orientation => 155
  | A_Origin => 156
  | A_Overflow => 157
  | A_OverlinePosition => 158
  | A_OverlineThickness => 159
  | A_Panose1 => 160
  | A_Path => 161
  | A_PathLength => 162
  | A_PatternContentUnits => 163
  | A_PatternTransform => 164
  | A_PatternUnits => 165
  | A_PointerEvents => 166
  | A_Points => 167
  | A_PointsAtX => 168
  | A_PointsAtY => 169
  | A_PointsAtZ => 170
  | A_PreserveAlpha => 171
  | A_PreserveAspectRatio => 172
  | A_PrimitiveUnits => 173
  | A_R => 174
  | A_Radius => 175
  | A_RefX => 176
  | A_RefY => 177
  | A_RenderingIntent => 178
  | A_RepeatCount => 179
  | A_RepeatDur => 180
  | A_RequiredExtensions => 181
  | A_RequiredFeatures => 182
  | A_Restart => 183
  | A_Result => 184
  | A_Role => 185
  | A_Rotate => 186
  | A_Rx => 187
  | A_Ry => 188
  | A_Scale => 189
  | A_Seed => 190
  | A_ShapeRendering => 191
  | A_Show => 192
  | A_Slope => 193
  | A_Space => 194
  | A_Spacing => 195
  | A_SpecularConstant => 196
  | A_SpecularExponent => 197
  | A_SpreadMethod => 198
  | A_Standalone => 199
  | A_StartOffset => 200
  | A_StdDeviation => 201
  | A_Stemh => 202
  | A_Stemv => 203
  | A_StitchTiles => 204
  | A_StopColor => 205
  | A_StopOpacity => 206
  | A_StrikethroughPosition => 207
  | A_StrikethroughThickness => 208
  | A_String => 209
  | A_Stroke => 210
  | A_StrokeDasharray => 211
  | A_StrokeDashoffset => 212
  | A_StrokeLinecap => 213
  | A_StrokeLinejoin => 214
  | A_StrokeMiterlimit => 215
  | A_StrokeOpacity => 216
  | A_StrokeWidth => 217
  | A_Style => 218
  | A_SurfaceScale => 219
  | A_SystemLanguage => 220
  | A_TableValues => 221
  | A_Target => 222
  | A_TargetX => 223
  | A_TargetY => 224
  | A_TextAnchor => 225
  | A_TextDecoration => 226
  | A_TextRendering => 227
  | A_TextLength => 228
  | A_Title => 229
  | A_To => 230
  | A_Transform => 231
  | A_Type => 232
  | A_U1 => 233
  | A_U2 => 234
  | A_UnderlinePosition => 235
  | A_UnderlineThickness => 236
  | A_Unicode => 237
  | A_UnicodeBidi => 238
  | A_UnicodeRange => 239
  | A_UnitsPerEm => 240
  | A_VAlphabetic => 241
  | A_VHanging => 242
  | A_VIdeographic => 243
  | A_VMathematical => 244
  | A_Values => 245
  | A_Version => 246
  | A_VertAdvY => 247
  | A_VertOriginX => 248
  | A_VertOriginY => 249
  | A_ViewBox => 250
  | A_ViewTarget => 251
  | A_Visibility => 252
  | A_Width => 253
  | A_Widths => 254
  | A_WordSpacing => 255
  | A_WritingMode => 256
  | A_X => 257
  | A_XHeight => 258
  | A_X1 => 259
  | A_X2 => 260
  | A_XChannelSelector => 261
  | A_Xlink => 262
  | A_Xmlns => 263
  | A_Y => 264
  | A_Y1 => 265
  | A_Y2 => 266
  | A_YChannelSelector => 267
  | A_Z => 268
  | A_ZoomAndPan => 269
  end%N.

Definition all_aids : list aid :=
  [A_AccentHeight;
   A_Accumulate;
   A_Actuate;
   A_Additive;
   A_AlignmentBaseline;
   A_Alphabetic;
   A_Amplitude;
   A_ArabicForm;
   A_Arcrole;
   A_Ascent;
   A_AttributeName;
   A_AttributeType;
   A_Azimuth;
   A_Base;
   A_BaseFrequency;
   A_BaselineShift;
   A_BaseProfile;
   A_Bbox;
   A_Begin;
   A_Bias;
   A_By;
   A_CalcMode;
   A_CapHeight;
   A_Class;
   A_Clip;
   A_ClipPath;
   A_ClipRule;
   A_ClipPathUnits;
   A_Color;
   A_ColorInterpolation;
   A_ColorInterpolationFilters;
   A_ColorProfile;
   A_ColorRendering;
   A_ContentScriptType;
   A_ContentStyleType;
   A_Cursor;
   A_Cx;
   A_Cy;
   A_D;
   A_Descent;
   A_DiffuseConstant;
   A_Direction;
   A_Display;
   A_Divisor;
   A_DominantBaseline;
   A_Dur;
   A_Dx;
   A_Dy;
   A_EdgeMode;
   A_Elevation;
   A_EnableBackground;
   A_Encoding;
   A_End;
   A_Exponent;
   A_ExternalResourcesRequired;
   A_Fill;
   A_FillOpacity;
   A_FillRule;
   A_Filter;
   A_FilterRes;
   A_FilterUnits;
   A_FloodColor;
   A_FloodOpacity;
   A_Font;
   A_FontFamily;
   A_FontSize;
   A_FontSizeAdjust;
   A_FontStretch;
   A_FontStyle;
   A_FontVariant;
   A_FontWeight;
   A_Format;
   A_From;
   A_Fx;
   A_Fy;
   A_G1;
   A_G2;
   A_GlyphName;
   A_GlyphOrientationHorizontal;
   A_GlyphOrientationVertical;
   A_GlyphRef;
   A_GradientTransform;
   A_GradientUnits;
   A_Hanging;
   A_Height;
   A_HorizAdvX;
   A_HorizOriginX;
   A_HorizOriginY;
   A_Href;
   A_Id;
   A_Ideographic;
   A_ImageRendering;
   A_In;
   A_In2;
   A_Intercept;
   A_K;
   A_K1;
   A_K2;
   A_K3;
   A_K4;
   A_KernelMatrix;
   A_KernelUnitLength;
   A_Kerning;
   A_KeyPoints;
   A_KeySplines;
   A_KeyTimes;
   A_Lang;
   A_LengthAdjust;
   A_LetterSpacing;
   A_LightingColor;
   A_LimitingConeAngle;
   A_LineHeight;
   A_Local;
   A_Marker;
   A_MarkerEnd;
   A_MarkerMid;
   A_MarkerStart;
   A_MarkerHeight;
   A_MarkerUnits;
   A_MarkerWidth;
   A_Mask;
   A_MaskContentUnits;
   A_MaskUnits;
   A_Mathematical;
   A_Max;
   A_Media;
   A_Method;
   A_Min;
   A_Mode;
   A_Name;
   A_NumOctaves;
   A_Offset;
   A_Onabort;
   A_Onactivate;
   A_Onbegin;
   A_Onclick;
   A_Onend;
   A_Onerror;
   A_Onfocusin;
   A_Onfocusout;
   A_Onload;
   A_Onmousedown;
   A_Onmousemove;
   A_Onmouseout;
   A_Onmouseover;
   A_Onmouseup;
   A_Onrepeat;
   A_Onresize;
   A_Onscroll;
   A_Onunload;
   A_Onzoom;
   A_Opacity;
   A_Operator;
   A_Order;
   A_Orient;
   A_Orientation;
   A_Origin;
   A_Overflow;
   A_OverlinePosition;
   A_OverlineThickness;
   A_Panose1;
   A_Path;
   A_PathLength;
   A_PatternContentUnits;
   A_PatternTransform;
   A_PatternUnits;
   A_PointerEvents;
   A_Points;
   A_PointsAtX;
   A_PointsAtY;
   A_PointsAtZ;
   A_PreserveAlpha;
   A_PreserveAspectRatio;
   A_PrimitiveUnits;
   A_R;
   A_Radius;
   A_RefX;
   A_RefY;
   A_RenderingIntent;
   A_RepeatCount;
   A_RepeatDur;
   A_RequiredExtensions;
   A_RequiredFeatures;
   A_Restart;
   A_Result;
   A_Role;
   A_Rotate;
   A_Rx;
   A_Ry;
   A_Scale;
   A_Seed;
   A_ShapeRendering;
   A_Show;
   A_Slope;
   A_Space;
   A_Spacing;
   A_SpecularConstant;
   A_SpecularExponent;
   A_SpreadMethod;
   A_Standalone;
   A_StartOffset;
   A_StdDeviation;
   A_Stemh;
   A_Stemv;
   A_StitchTiles;
   A_StopColor;
   A_StopOpacity;
   A_StrikethroughPosition;
   A_StrikethroughThickness;
   A_String;
   A_Stroke;
   A_StrokeDasharray;
   A_StrokeDashoffset;
   A_StrokeLinecap;
   A_StrokeLinejoin;
   A_StrokeMiterlimit;
   A_StrokeOpacity;
   A_StrokeWidth;
   A_Style;
   A_SurfaceScale;
   A_SystemLanguage;
   A_TableValues;
   A_Target;
   A_TargetX;
   A_TargetY;
   A_TextAnchor;
   A_TextDecoration;
   A_TextRendering;
   A_TextLength;
   A_Title;
   A_To;
   A_Transform;
   A_Type;
   A_U1;
   A_U2;
   A_UnderlinePosition;
   A_UnderlineThickness;
   A_Unicode;
   A_UnicodeBidi;
   A_UnicodeRange;
   A_UnitsPerEm;
   A_VAlphabetic;
   A_VHanging;
   A_VIdeographic;
   A_VMathematical;
   A_Values;
   A_Version;
   A_VertAdvY;
   A_VertOriginX;
   A_VertOriginY;
   A_ViewBox;
   A_ViewTarget;
   A_Visibility;
   A_Width;
   A_Widths;
   A_WordSpacing;
   A_WritingMode;
   A_X;
   A_XHeight;
   A_X1;
   A_X2;
   A_XChannelSelector;
   A_Xlink;
   A_Xmlns;
   A_Y;
   A_Y1;
   A_Y2;
   A_YChannelSelector;
   A_Z;
   A_ZoomAndPan].

(* derive(PartialEq) of AttributeId, names.rs:221: equality of discriminants. *)
Definition aid_eqb (a b : aid) : bool := N.eqb (aid_idx a) (aid_idx b).

