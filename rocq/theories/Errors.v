(* Model of src/error.rs: the errors and their messages. *)
From Coq Require Import String List NArith Decimal.
From Verif Require Import Base Data NodeApi Parser.
Import ListNotations.
Open Scope string_scope.
Open Scope list_scope.

(* impl Display for Error, error.rs:30-41. *)
Definition error_text (e : error) : str :=
  match e with
  | ElementMustHaveAnId => lit "the element must have an id"
  | ElementCrosslink => lit "element crosslink"
  end.

(* Display for u32: decimal digits. *)
Fixpoint digits (u : Decimal.uint) : str :=
  match u with
  | Decimal.Nil => []
  | Decimal.D0 u => 48%N :: digits u
  | Decimal.D1 u => 49%N :: digits u
  | Decimal.D2 u => 50%N :: digits u
  | Decimal.D3 u => 51%N :: digits u
  | Decimal.D4 u => 52%N :: digits u
  | Decimal.D5 u => 53%N :: digits u
  | Decimal.D6 u => 54%N :: digits u
  | Decimal.D7 u => 55%N :: digits u
  | Decimal.D8 u => 56%N :: digits u
  | Decimal.D9 u => 57%N :: digits u
  end.
(* roxmltree::TextPos, shown as row:col (external; numbers are not bounded here). *)
Record text_pos := mkPos { tp_row : N; tp_col : N }.
Definition pos_text (p : text_pos) : str := digits (N.to_uint (tp_row p)) ++ lit ":" ++ digits (N.to_uint (tp_col p)).

(* ParserError, error.rs:51-67.  An error of roxmltree is given by its message. *)
Inductive parser_error :=
| PeNoSvgElement
| PeUnsupportedCSS (p : text_pos)
| PeDomError (e : error)
| PeInvalidAttributeValue (p : text_pos)
| PeRoXmlError (message : str).
(* impl Display for ParserError, error.rs:69-89. *)
Definition parser_error_text (e : parser_error) : str :=
  match e with
  | PeNoSvgElement => lit "the document does not have an SVG element"
  | PeUnsupportedCSS p => lit "unsupported CSS at " ++ pos_text p
  | PeInvalidAttributeValue p => lit "invalid attribute value at " ++ pos_text p
  | PeDomError e => error_text e
  | PeRoXmlError m => m
  end.
(* error::Error::description, error.rs:43-47 and 91-95. *)
Definition error_description (e : error) : str := lit "an SVG error".
Definition parser_error_description (e : parser_error) : str := lit "an SVG parsing error".
(* impl From<Error> and From<roxmltree::Error> for ParserError, error.rs:97-107. *)
Definition from_error (e : error) : parser_error := PeDomError e.
Definition from_xml_error (message : str) : parser_error := PeRoXmlError message.

(* Document::from_str, document.rs:94-96, and parse_svg, parser/mod.rs:46-75, with the errors as they are given to the
   caller: the text is read by roxmltree to nodes or to an error with a message; `?` converts that error. *)
Definition from_str (P : values) (xml : list xml + str) : res (dom + parser_error) :=
  match xml with
  | inl top =>
      r <- parse_svg P (Some top) ;;
      match r with
      | POk D => Ok (inl D)
      | PErr NoSvgElement => Ok (inr PeNoSvgElement)
      | PErr RoXmlError => Ok (inr (from_xml_error []))
      end
  | inr m => Ok (inr (from_xml_error m))
  end.
