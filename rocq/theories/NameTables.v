(* Generated by tools/gen_names.py from /repo/src/names.rs.  Do not edit. *)
From Coq Require Import List NArith String.
From Verif Require Import Base Ids.
Import ListNotations.
Open Scope string_scope.

(* static ELEMENTS, names.rs:92-194. *)
Definition elements_key : N := 732231254413039614%N.

Definition elements_disps : list (N * N) :=
  [(5, 43);
   (0, 2);
   (0, 41);
   (0, 0);
   (0, 16);
   (11, 5);
   (0, 12);
   (4, 18);
   (22, 32);
   (5, 9);
   (2, 56);
   (6, 13);
   (2, 24);
   (0, 21);
   (9, 52);
   (0, 3)]%N.

Definition elements_entries : list (str * eid) :=
  [(lit "font-face-uri", E_FontFaceUri);
   (lit "feFuncR", E_FeFuncR);
   (lit "text", E_Text);
   (lit "title", E_Title);
   (lit "feBlend", E_FeBlend);
   (lit "missing-glyph", E_MissingGlyph);
   (lit "animateColor", E_AnimateColor);
   (lit "marker", E_Marker);
   (lit "feMergeNode", E_FeMergeNode);
   (lit "filter", E_Filter);
   (lit "feOffset", E_FeOffset);
   (lit "feSpecularLighting", E_FeSpecularLighting);
   (lit "stop", E_Stop);
   (lit "clipPath", E_ClipPath);
   (lit "line", E_Line);
   (lit "ellipse", E_Ellipse);
   (lit "radialGradient", E_RadialGradient);
   (lit "feConvolveMatrix", E_FeConvolveMatrix);
   (lit "feMerge", E_FeMerge);
   (lit "feDiffuseLighting", E_FeDiffuseLighting);
   (lit "feFuncG", E_FeFuncG);
   (lit "feMorphology", E_FeMorphology);
   (lit "color-profile", E_ColorProfile);
   (lit "use", E_Use);
   (lit "animate", E_Animate);
   (lit "polyline", E_Polyline);
   (lit "hkern", E_Hkern);
   (lit "svg", E_Svg);
   (lit "feComposite", E_FeComposite);
   (lit "rect", E_Rect);
   (lit "font-face", E_FontFace);
   (lit "a", E_A);
   (lit "path", E_Path);
   (lit "linearGradient", E_LinearGradient);
   (lit "feComponentTransfer", E_FeComponentTransfer);
   (lit "feTile", E_FeTile);
   (lit "altGlyphDef", E_AltGlyphDef);
   (lit "feFuncA", E_FeFuncA);
   (lit "symbol", E_Symbol);
   (lit "glyphRef", E_GlyphRef);
   (lit "glyph", E_Glyph);
   (lit "style", E_Style);
   (lit "switch", E_Switch);
   (lit "set", E_Set);
   (lit "font-face-name", E_FontFaceName);
   (lit "font-face-src", E_FontFaceSrc);
   (lit "font-face-format", E_FontFaceFormat);
   (lit "feFlood", E_FeFlood);
   (lit "tref", E_Tref);
   (lit "feFuncB", E_FeFuncB);
   (lit "mpath", E_Mpath);
   (lit "animateMotion", E_AnimateMotion);
   (lit "defs", E_Defs);
   (lit "feGaussianBlur", E_FeGaussianBlur);
   (lit "view", E_View);
   (lit "foreignObject", E_ForeignObject);
   (lit "tspan", E_Tspan);
   (lit "altGlyph", E_AltGlyph);
   (lit "cursor", E_Cursor);
   (lit "feDisplacementMap", E_FeDisplacementMap);
   (lit "pattern", E_Pattern);
   (lit "mask", E_Mask);
   (lit "font", E_Font);
   (lit "desc", E_Desc);
   (lit "feImage", E_FeImage);
   (lit "feColorMatrix", E_FeColorMatrix);
   (lit "feTurbulence", E_FeTurbulence);
   (lit "feDistantLight", E_FeDistantLight);
   (lit "g", E_G);
   (lit "fePointLight", E_FePointLight);
   (lit "feSpotLight", E_FeSpotLight);
   (lit "script", E_Script);
   (lit "image", E_Image);
   (lit "metadata", E_Metadata);
   (lit "vkern", E_Vkern);
   (lit "textPath", E_TextPath);
   (lit "polygon", E_Polygon);
   (lit "circle", E_Circle);
   (lit "altGlyphItem", E_AltGlyphItem);
   (lit "animateTransform", E_AnimateTransform)].

(* static ATTRIBUTES, names.rs:496-826. *)
Definition attributes_key : N := 732231254413039614%N.

Definition attributes_disps : list (N * N) :=
  [(0, 1);
   (1, 123);
   (0, 115);
   (0, 2);
   (0, 2);
   (0, 16);
   (1, 155);
   (1, 26);
   (1, 211);
   (0, 5);
   (0, 227);
   (1, 96);
   (0, 141);
   (0, 2);
   (0, 211);
   (0, 18);
   (0, 19);
   (0, 17);
   (2, 105);
   (3, 1);
   (0, 28);
   (0, 9);
   (0, 242);
   (0, 27);
   (0, 17);
   (0, 68);
   (6, 41);
   (8, 57);
   (0, 125);
   (20, 219);
   (0, 54);
   (3, 93);
   (0, 29);
   (7, 60);
   (3, 192);
   (2, 96);
   (0, 262);
   (5, 50);
   (0, 3);
   (0, 111);
   (0, 39);
   (0, 17);
   (0, 1);
   (0, 217);
   (0, 0);
   (3, 159);
   (0, 20);
   (3, 57);
   (0, 52);
   (14, 224);
   (0, 0);
   (9, 236);
   (20, 213);
   (4, 265)]%N.

Definition attributes_entries : list (str * aid) :=
  [(lit "order", A_Order);
   (lit "lengthAdjust", A_LengthAdjust);
   (lit "offset", A_Offset);
   (lit "cy", A_Cy);
   (lit "azimuth", A_Azimuth);
   (lit "viewTarget", A_ViewTarget);
   (lit "systemLanguage", A_SystemLanguage);
   (lit "exponent", A_Exponent);
   (lit "targetX", A_TargetX);
   (lit "specularConstant", A_SpecularConstant);
   (lit "gradientTransform", A_GradientTransform);
   (lit "onclick", A_Onclick);
   (lit "opacity", A_Opacity);
   (lit "string", A_String);
   (lit "onbegin", A_Onbegin);
   (lit "k4", A_K4);
   (lit "clip-path", A_ClipPath);
   (lit "bias", A_Bias);
   (lit "font", A_Font);
   (lit "dx", A_Dx);
   (lit "y1", A_Y1);
   (lit "keyTimes", A_KeyTimes);
   (lit "markerUnits", A_MarkerUnits);
   (lit "stdDeviation", A_StdDeviation);
   (lit "baseProfile", A_BaseProfile);
   (lit "class", A_Class);
   (lit "vert-adv-y", A_VertAdvY);
   (lit "widths", A_Widths);
   (lit "vert-origin-x", A_VertOriginX);
   (lit "color-profile", A_ColorProfile);
   (lit "k1", A_K1);
   (lit "path", A_Path);
   (lit "markerWidth", A_MarkerWidth);
   (lit "surfaceScale", A_SurfaceScale);
   (lit "space", A_Space);
   (lit "onmouseup", A_Onmouseup);
   (lit "y", A_Y);
   (lit "text-decoration", A_TextDecoration);
   (lit "patternUnits", A_PatternUnits);
   (lit "lighting-color", A_LightingColor);
   (lit "color-interpolation-filters", A_ColorInterpolationFilters);
   (lit "bbox", A_Bbox);
   (lit "startOffset", A_StartOffset);
   (lit "to", A_To);
   (lit "version", A_Version);
   (lit "targetY", A_TargetY);
   (lit "style", A_Style);
   (lit "method", A_Method);
   (lit "stemh", A_Stemh);
   (lit "x", A_X);
   (lit "externalResourcesRequired", A_ExternalResourcesRequired);
   (lit "k", A_K);
   (lit "onmousemove", A_Onmousemove);
   (lit "format", A_Format);
   (lit "role", A_Role);
   (lit "specularExponent", A_SpecularExponent);
   (lit "patternTransform", A_PatternTransform);
   (lit "points", A_Points);
   (lit "markerHeight", A_MarkerHeight);
   (lit "stitchTiles", A_StitchTiles);
   (lit "fill-rule", A_FillRule);
   (lit "g1", A_G1);
   (lit "unicode", A_Unicode);
   (lit "horiz-origin-y", A_HorizOriginY);
   (lit "amplitude", A_Amplitude);
   (lit "baseFrequency", A_BaseFrequency);
   (lit "from", A_From);
   (lit "text-anchor", A_TextAnchor);
   (lit "kernelMatrix", A_KernelMatrix);
   (lit "clipPathUnits", A_ClipPathUnits);
   (lit "panose-1", A_Panose1);
   (lit "pointer-events", A_PointerEvents);
   (lit "radius", A_Radius);
   (lit "local", A_Local);
   (lit "type", A_Type);
   (lit "min", A_Min);
   (lit "id", A_Id);
   (lit "kernelUnitLength", A_KernelUnitLength);
   (lit "descent", A_Descent);
   (lit "direction", A_Direction);
   (lit "encoding", A_Encoding);
   (lit "calcMode", A_CalcMode);
   (lit "attributeType", A_AttributeType);
   (lit "onfocusin", A_Onfocusin);
   (lit "values", A_Values);
   (lit "baseline-shift", A_BaselineShift);
   (lit "u2", A_U2);
   (lit "letter-spacing", A_LetterSpacing);
   (lit "fill-opacity", A_FillOpacity);
   (lit "image-rendering", A_ImageRendering);
   (lit "flood-opacity", A_FloodOpacity);
   (lit "xmlns", A_Xmlns);
   (lit "spacing", A_Spacing);
   (lit "rx", A_Rx);
   (lit "repeatCount", A_RepeatCount);
   (lit "horiz-origin-x", A_HorizOriginX);
   (lit "stroke", A_Stroke);
   (lit "ry", A_Ry);
   (lit "href", A_Href);
   (lit "maskUnits", A_MaskUnits);
   (lit "font-family", A_FontFamily);
   (lit "onmousedown", A_Onmousedown);
   (lit "xChannelSelector", A_XChannelSelector);
   (lit "height", A_Height);
   (lit "v-hanging", A_VHanging);
   (lit "arabic-form", A_ArabicForm);
   (lit "max", A_Max);
   (lit "target", A_Target);
   (lit "filterUnits", A_FilterUnits);
   (lit "scale", A_Scale);
   (lit "clip", A_Clip);
   (lit "onmouseover", A_Onmouseover);
   (lit "show", A_Show);
   (lit "refX", A_RefX);
   (lit "overline-position", A_OverlinePosition);
   (lit "origin", A_Origin);
   (lit "arcrole", A_Arcrole);
   (lit "stroke-opacity", A_StrokeOpacity);
   (lit "filterRes", A_FilterRes);
   (lit "contentScriptType", A_ContentScriptType);
   (lit "seed", A_Seed);
   (lit "onactivate", A_Onactivate);
   (lit "shape-rendering", A_ShapeRendering);
   (lit "v-mathematical", A_VMathematical);
   (lit "vert-origin-y", A_VertOriginY);
   (lit "pointsAtX", A_PointsAtX);
   (lit "stroke-width", A_StrokeWidth);
   (lit "dominant-baseline", A_DominantBaseline);
   (lit "divisor", A_Divisor);
   (lit "in2", A_In2);
   (lit "onresize", A_Onresize);
   (lit "width", A_Width);
   (lit "y2", A_Y2);
   (lit "strikethrough-position", A_StrikethroughPosition);
   (lit "font-size-adjust", A_FontSizeAdjust);
   (lit "glyph-orientation-vertical", A_GlyphOrientationVertical);
   (lit "onfocusout", A_Onfocusout);
   (lit "pathLength", A_PathLength);
   (lit "fill", A_Fill);
   (lit "color-interpolation", A_ColorInterpolation);
   (lit "yChannelSelector", A_YChannelSelector);
   (lit "rendering-intent", A_RenderingIntent);
   (lit "contentStyleType", A_ContentStyleType);
   (lit "font-style", A_FontStyle);
   (lit "base", A_Base);
   (lit "writing-mode", A_WritingMode);
   (lit "unicode-bidi", A_UnicodeBidi);
   (lit "refY", A_RefY);
   (lit "title", A_Title);
   (lit "result", A_Result);
   (lit "cx", A_Cx);
   (lit "flood-color", A_FloodColor);
   (lit "stroke-dashoffset", A_StrokeDashoffset);
   (lit "edgeMode", A_EdgeMode);
   (lit "font-weight", A_FontWeight);
   (lit "lang", A_Lang);
   (lit "requiredExtensions", A_RequiredExtensions);
   (lit "orient", A_Orient);
   (lit "marker", A_Marker);
   (lit "font-size", A_FontSize);
   (lit "onmouseout", A_Onmouseout);
   (lit "font-variant", A_FontVariant);
   (lit "onzoom", A_Onzoom);
   (lit "limitingConeAngle", A_LimitingConeAngle);
   (lit "onrepeat", A_Onrepeat);
   (lit "in", A_In);
   (lit "pointsAtZ", A_PointsAtZ);
   (lit "zoomAndPan", A_ZoomAndPan);
   (lit "mask", A_Mask);
   (lit "begin", A_Begin);
   (lit "v-alphabetic", A_VAlphabetic);
   (lit "keyPoints", A_KeyPoints);
   (lit "g2", A_G2);
   (lit "glyphRef", A_GlyphRef);
   (lit "name", A_Name);
   (lit "visibility", A_Visibility);
   (lit "ideographic", A_Ideographic);
   (lit "font-stretch", A_FontStretch);
   (lit "display", A_Display);
   (lit "overflow", A_Overflow);
   (lit "stroke-linecap", A_StrokeLinecap);
   (lit "color-rendering", A_ColorRendering);
   (lit "stop-opacity", A_StopOpacity);
   (lit "accumulate", A_Accumulate);
   (lit "word-spacing", A_WordSpacing);
   (lit "glyph-orientation-horizontal", A_GlyphOrientationHorizontal);
   (lit "tableValues", A_TableValues);
   (lit "line-height", A_LineHeight);
   (lit "kerning", A_Kerning);
   (lit "enable-background", A_EnableBackground);
   (lit "x-height", A_XHeight);
   (lit "gradientUnits", A_GradientUnits);
   (lit "stemv", A_Stemv);
   (lit "viewBox", A_ViewBox);
   (lit "glyph-name", A_GlyphName);
   (lit "k3", A_K3);
   (lit "textLength", A_TextLength);
   (lit "preserveAlpha", A_PreserveAlpha);
   (lit "onload", A_Onload);
   (lit "operator", A_Operator);
   (lit "horiz-adv-x", A_HorizAdvX);
   (lit "v-ideographic", A_VIdeographic);
   (lit "cap-height", A_CapHeight);
   (lit "restart", A_Restart);
   (lit "fy", A_Fy);
   (lit "intercept", A_Intercept);
   (lit "fx", A_Fx);
   (lit "alphabetic", A_Alphabetic);
   (lit "onscroll", A_Onscroll);
   (lit "end", A_End);
   (lit "color", A_Color);
   (lit "accent-height", A_AccentHeight);
   (lit "patternContentUnits", A_PatternContentUnits);
   (lit "numOctaves", A_NumOctaves);
   (lit "x2", A_X2);
   (lit "units-per-em", A_UnitsPerEm);
   (lit "stroke-linejoin", A_StrokeLinejoin);
   (lit "attributeName", A_AttributeName);
   (lit "mathematical", A_Mathematical);
   (lit "underline-thickness", A_UnderlineThickness);
   (lit "ascent", A_Ascent);
   (lit "orientation", A_Orientation);
   (lit "keySplines", A_KeySplines);
   (lit "hanging", A_Hanging);
   (lit "z", A_Z);
   (lit "primitiveUnits", A_PrimitiveUnits);
   (lit "diffuseConstant", A_DiffuseConstant);
   (lit "strikethrough-thickness", A_StrikethroughThickness);
   (lit "cursor", A_Cursor);
   (lit "marker-end", A_MarkerEnd);
   (lit "clip-rule", A_ClipRule);
   (lit "marker-mid", A_MarkerMid);
   (lit "x1", A_X1);
   (lit "requiredFeatures", A_RequiredFeatures);
   (lit "alignment-baseline", A_AlignmentBaseline);
   (lit "unicode-range", A_UnicodeRange);
   (lit "stop-color", A_StopColor);
   (lit "elevation", A_Elevation);
   (lit "k2", A_K2);
   (lit "dy", A_Dy);
   (lit "mode", A_Mode);
   (lit "repeatDur", A_RepeatDur);
   (lit "actuate", A_Actuate);
   (lit "by", A_By);
   (lit "pointsAtY", A_PointsAtY);
   (lit "r", A_R);
   (lit "additive", A_Additive);
   (lit "rotate", A_Rotate);
   (lit "slope", A_Slope);
   (lit "media", A_Media);
   (lit "maskContentUnits", A_MaskContentUnits);
   (lit "spreadMethod", A_SpreadMethod);
   (lit "filter", A_Filter);
   (lit "text-rendering", A_TextRendering);
   (lit "underline-position", A_UnderlinePosition);
   (lit "onabort", A_Onabort);
   (lit "dur", A_Dur);
   (lit "xlink", A_Xlink);
   (lit "stroke-miterlimit", A_StrokeMiterlimit);
   (lit "onerror", A_Onerror);
   (lit "onend", A_Onend);
   (lit "stroke-dasharray", A_StrokeDasharray);
   (lit "d", A_D);
   (lit "preserveAspectRatio", A_PreserveAspectRatio);
   (lit "standalone", A_Standalone);
   (lit "transform", A_Transform);
   (lit "marker-start", A_MarkerStart);
   (lit "u1", A_U1);
   (lit "overline-thickness", A_OverlineThickness);
   (lit "onunload", A_Onunload)].

