(* Specification: errors. *)
From Verif Require Import Errors.

(* The errors of this crate: all but those of the XML reader. *)
Definition own_error (e : parser_error) : Prop := match e with PeRoXmlError _ => False | _ => True end.
