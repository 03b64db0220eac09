(* Specification: the classes of attributes and elements as lists of XML names.  The element lists are
   those of the documentation in element_type.rs:17-104, the presentation attributes are the property
   index of SVG 1.1, the event and other lists are those of the definitions chapter of SVG 1.1. *)
From Coq Require Import List String.
Import ListNotations.
Open Scope string_scope.

Definition presentation_names : list string :=
  ["alignment-baseline"; "baseline-shift"; "clip"; "clip-path"; "clip-rule"; "color"; "color-interpolation";
   "color-interpolation-filters"; "color-profile"; "color-rendering"; "cursor"; "direction"; "display";
   "dominant-baseline"; "enable-background"; "fill"; "fill-opacity"; "fill-rule"; "filter"; "flood-color";
   "flood-opacity"; "font"; "font-family"; "font-size"; "font-size-adjust"; "font-stretch"; "font-style";
   "font-variant"; "font-weight"; "glyph-orientation-horizontal"; "glyph-orientation-vertical"; "image-rendering";
   "kerning"; "letter-spacing"; "lighting-color"; "marker"; "marker-end"; "marker-mid"; "marker-start"; "mask";
   "opacity"; "overflow"; "pointer-events"; "shape-rendering"; "stop-color"; "stop-opacity"; "stroke";
   "stroke-dasharray"; "stroke-dashoffset"; "stroke-linecap"; "stroke-linejoin"; "stroke-miterlimit";
   "stroke-opacity"; "stroke-width"; "text-anchor"; "text-decoration"; "text-rendering"; "unicode-bidi";
   "visibility"; "word-spacing"; "writing-mode"].
(* Inherited: no, in the property index; [visibility] as explained in attribute_type.rs:238-245. *)
Definition non_inherited_names : list string :=
  ["alignment-baseline"; "baseline-shift"; "clip"; "clip-path"; "display"; "dominant-baseline"; "enable-background";
   "filter"; "flood-color"; "flood-opacity"; "lighting-color"; "mask"; "opacity"; "overflow"; "stop-color";
   "stop-opacity"; "text-decoration"; "unicode-bidi"; "visibility"].
Definition animation_event_names : list string := ["onbegin"; "onend"; "onload"; "onrepeat"].
Definition graphical_event_names : list string :=
  ["onactivate"; "onclick"; "onfocusin"; "onfocusout"; "onload"; "onmousedown"; "onmousemove"; "onmouseout";
   "onmouseover"; "onmouseup"].
Definition document_event_names : list string := ["onabort"; "onerror"; "onresize"; "onscroll"; "onunload"; "onzoom"].
Definition conditional_names : list string := ["requiredExtensions"; "requiredFeatures"; "systemLanguage"].
Definition core_names : list string := ["base"; "lang"; "space"].
Definition fill_names : list string := ["fill"; "fill-opacity"; "fill-rule"].
Definition stroke_names : list string :=
  ["stroke"; "stroke-dasharray"; "stroke-dashoffset"; "stroke-linecap"; "stroke-linejoin"; "stroke-miterlimit";
   "stroke-opacity"; "stroke-width"].

Definition referenced_names : list string :=
  ["altGlyphDef"; "clipPath"; "cursor"; "filter"; "linearGradient"; "marker"; "mask"; "pattern"; "radialGradient";
   "symbol"].
Definition basic_shape_names : list string := ["rect"; "circle"; "ellipse"; "line"; "polyline"; "polygon"].
Definition shape_names : list string := ["path"; "rect"; "circle"; "ellipse"; "line"; "polyline"; "polygon"].
Definition container_names : list string :=
  ["a"; "defs"; "glyph"; "g"; "marker"; "mask"; "missing-glyph"; "pattern"; "svg"; "switch"; "symbol"].
Definition text_content_names : list string := ["altGlyph"; "textPath"; "text"; "tref"; "tspan"].
Definition text_content_child_names : list string := ["altGlyph"; "textPath"; "tref"; "tspan"].
Definition graphic_names : list string :=
  ["circle"; "ellipse"; "image"; "line"; "path"; "polygon"; "polyline"; "rect"; "text"; "use"].
Definition gradient_names : list string := ["linearGradient"; "radialGradient"].
Definition paint_server_names : list string := ["linearGradient"; "radialGradient"; "pattern"].
Definition filter_primitive_names : list string :=
  ["feBlend"; "feColorMatrix"; "feComponentTransfer"; "feComposite"; "feConvolveMatrix"; "feDiffuseLighting";
   "feDisplacementMap"; "feFlood"; "feGaussianBlur"; "feImage"; "feMerge"; "feMorphology"; "feOffset";
   "feSpecularLighting"; "feTile"; "feTurbulence"].
