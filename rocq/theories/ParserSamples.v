(* Concrete XML trees and value parsers. *)
From Coq Require Import String List Bool PeanoNat NArith ZArith.
From Coq Require Import SpecFloat.
From Verif Require Import Base Ids Names Links Tree Iter ForestSpec TreeSpec Data Attrs Slab NodeApi Doc Text Parser ParserSpec.
Import ListNotations.
Open Scope string_scope.
Open Scope nat_scope.
Open Scope list_scope.

(* A splitter for declarations `name:value;name:value`. *)
Fixpoint split_at (sep : N) (s : str) : list str :=
  match s with
  | [] => [[]]
  | c :: t => if N.eqb c sep then [] :: split_at sep t
              else match split_at sep t with
                   | h :: r => (c :: h) :: r
                   | [] => [[c]]
                   end
  end.
Definition decl_of (s : str) : list (str * str) :=
  match split_at 58 s with [n; v] => [(n, v)] | _ => [] end.
Definition sample_decls (s : str) : list (str * str) := flat_map decl_of (split_at 59 s).

Fixpoint starts (p s : str) : option str :=
  match p, s with
  | [], r => Some r
  | a :: p', b :: s' => if N.eqb a b then starts p' s' else None
  | _, [] => None
  end.
Definition sample_iri (s : str) : option str := starts (lit "#") s.
(* url(#x) *)
Definition sample_func (s : str) : option str :=
  match starts (lit "url(#") s with
  | Some r => Some (removelast r)
  | None => None
  end.
Definition half : f64 := S754_finite false 4503599627370496 (-53).
Definition two : f64 := S754_finite false 4503599627370496 (-51).
Definition red_color : color := mkColor 255 0 0.
Definition sample_color (s : str) : option color := if eqs s "red" then Some red_color else None.
Definition sample_paint (s : str) : option paint :=
  if eqs s "none" then Some PtNone
  else match sample_color s with
       | Some c => Some (PtColor c)
       | None => match sample_func s with Some i => Some (PtIri i (Some FNone)) | None => None end
       end.
Definition sample_number (s : str) : option (f64 * bool) :=
  if eqs s "0.5" then Some (half, true) else if eqs s "2" then Some (two, true) else None.
Definition sample_length (s : str) : option length_ :=
  match sample_number s with Some (x, _) => Some (mkLength x UNone) | None => None end.

(* The node at a path; a style sheet is a list of declarations for all rects. *)
Fixpoint xml_at (l : list xml) (path : list nat) : option xml :=
  match path with
  | [] => None
  | [i] => nth_error l i
  | i :: p => match nth_error l i with Some (XmlElement _ _ _ ks) => xml_at ks p | _ => None end
  end.
Definition on_rects (top : list xml) (path : list nat) : bool :=
  match xml_at top path with Some (XmlElement _ n _ _) => eqs n "rect" | _ => false end.
Definition sample_sheet (l : list str) : list rule := map (fun s => mkRule on_rects (sample_decls s)) l.

Definition PV : values :=
  mkValues sample_iri sample_func sample_paint sample_length (fun s => match s with [] => None | _ => Some 1%N end) sample_number
    (fun _ => Some 2%N) sample_color (fun _ => Some 3%N) (fun s => map Some s) (fun l => N.of_nat (length l)) (fun _ => Some 4%N)
    (fun _ => Some 5%N) (fun _ => Some 6%N) (fun _ => Some 7%N) (fun _ => false) (fun _ => false) (fun p => N.eqb p 0) (fun _ => false)
    sample_decls sample_sheet.

Definition at_ (name value : string) : xattr := mkXattr None (lit name) (lit value).
Definition el (name : string) (attrs : list xattr) (kids : list xml) : xml := XmlElement (Some ns_svg) (lit name) attrs kids.
Definition tx (s : string) : xml := XmlText (lit s).

(* A document with a style sheet, references, foreign elements, a text. *)
Definition xml1 : list xml :=
  [ XmlComment (lit "top");
    el "svg" [at_ "width" "2"; at_ "class" "c"; mkXattr (Some ns_xlink) (lit "href") (lit "#no")]
      [ el "style" [at_ "type" "text/css"] [tx "fill:red;stroke-opacity:0.5;marker:url(#m)"];
        tx "  ";
        el "rect" [at_ "id" "r"; at_ "stroke" "url(#lg)"; at_ "fill" "none"; at_ "opacity" "2"; at_ "style" "opacity:0.5;color:red;junk:1"] [];
        XmlElement None (lit "rect") [] [el "g" [] []];
        el "unknown" [] [el "g" [] []];
        el "linearGradient" [at_ "id" "lg"] [];
        el "marker" [at_ "id" "m"] [];
        el "g" [] [XmlComment (lit "in"); el "circle" [at_ "fill" "url(#lg)"; at_ "stroke" "url(#none)"] []];
        el "text" [] [tx " a  b "; el "tspan" [at_ "fill-opacity" "2"] [tx " "; tx "c"]] ];
    XmlOther ].

(* An outline of a document. *)
Inductive oline :=
| OE (e : tagname) (id : str) (attrs : list attr) (kids : list oline)
| OT (s : str)
| OC (s : str)
| ORoot (kids : list oline)
| OBad.
Fixpoint outline (fuel : nat) (D : dom) (n : nid) : oline :=
  match fuel with
  | O => OBad
  | S f =>
      match children_list (enough D) (lk D) (children (lk D) n) with
      | Ok l =>
          match node_type D n with
          | NElement => OE (tag_name D n) (id_of D n) (attributes D n) (map (outline f D) l)
          | NText => OT (text_of D n)
          | NComment => OC (text_of D n)
          | _ => ORoot (map (outline f D) l)
          end
      | _ => OBad
      end
  end.
Definition show (r : res (presult dom)) : option oline :=
  match r with Ok (POk D) => Some (outline 10 D (droot D)) | _ => None end.
