(* Specification of the written output: a reader of the events, the attributes of a start tag,
   character references and id references. *)
From Coq Require Import String List Bool PeanoNat NArith Permutation Sorted.
From Verif Require Import Base Ids Names Links Iter ForestSpec Data Attrs NodeApi Writer.
Import ListNotations.
Open Scope N_scope.
Open Scope list_scope.

(* What an XML reader sees.  The flags tell whether white space was preserved when the item, or the
   start and the end tag of the element, was written. *)
Inductive xitem :=
| XElement (at_start : bool) (name : str) (attrs : list (str * str)) (kids : list xitem) (at_end : bool)
| XComment (flag : bool) (s : str)
| XText (flag : bool) (s : str).

(* An open element: flag at the start tag, name, attributes and content so far. *)
Record frame := mkFrame { f_flag : bool; f_name : str; f_attrs : list (str * str); f_kids : list xitem }.
Definition add_kid (x : xitem) (f : frame) : frame :=
  mkFrame (f_flag f) (f_name f) (f_attrs f) (f_kids f ++ [x]).
Definition add_attr (name value : str) (f : frame) : frame :=
  mkFrame (f_flag f) (f_name f) (f_attrs f ++ [(name, value)]) (f_kids f).
Definition close (flag : bool) (f : frame) : xitem :=
  XElement (f_flag f) (f_name f) (f_attrs f) (f_kids f) flag.

(* The reader: a stack of open elements, attributes only inside of a start tag, every end closes the
   last open element, nothing is open at the end. *)
Fixpoint read (evs : list event) (flag tag_open : bool) (cur : frame) (stack : list frame) : option (list xitem) :=
  match evs with
  | [] => match stack with [] => Some (f_kids cur) | _ :: _ => None end
  | e :: evs =>
      match e with
      | EStart name => read evs flag true (mkFrame flag name [] []) (cur :: stack)
      | EAttr name value | ERaw name value =>
          if tag_open then read evs flag true (add_attr name value cur) stack else None
      | EPreserve b => read evs b tag_open cur stack
      | EComment s => read evs flag false (add_kid (XComment flag s) cur) stack
      | EText s => read evs flag false (add_kid (XText flag s) cur) stack
      | EEnd => match stack with
                | [] => None
                | p :: st => read evs flag false (add_kid (close flag cur) p) st
                end
      end
  end.
Definition read_back (evs : list event) : option (list xitem) :=
  read evs false false (mkFrame false [] [] []) [].

(* The name of an element and of an attribute in the file. *)
Inductive tag_label : tagname -> str -> Prop :=
| tl_id : forall e s, element_as_str e = Ok s -> tag_label (QId e) s
| tl_name : forall s, tag_label (QName s) s.
Inductive attr_label : aname -> str -> Prop :=
| al_href : attr_label (QId A_Href) (lit "xlink:href")
| al_space : attr_label (QId A_Space) (lit "xml:space")
| al_id : forall a s, a <> A_Href -> a <> A_Space -> attribute_as_str a = Ok s -> attr_label (QId a) s
| al_name : forall s, attr_label (QName s) s.

(* The text of a value: keywords, strings as they are, references by the id of their target, and the
   numbers and lists by the writers of the svgtypes crate. *)
Definition value_str (W : writers) (D : dom) (v : avalue) : str :=
  match v with
  | VNone => lit "none"
  | VInherit => lit "inherit"
  | VCurrentColor => lit "currentColor"
  | VString s => s
  | VNumber x => w_number W x
  | VNumberList p => w_number_list W p
  | VLength l => w_length W l
  | VLengthList p => w_length_list W p
  | VAngle p => w_angle W p
  | VTransform p => w_transform W p
  | VPath p => w_path W p
  | VPoints p => w_points W p
  | VLink n => lit "#" ++ id_of D n
  | VFuncLink n => lit "url(#" ++ id_of D n ++ lit ")"
  | VPaint n None => lit "url(#" ++ id_of D n ++ lit ")"
  | VPaint n (Some FNone) => lit "url(#" ++ id_of D n ++ lit ") none"
  | VPaint n (Some FCurrentColor) => lit "url(#" ++ id_of D n ++ lit ") currentColor"
  | VPaint n (Some (FColor c)) => lit "url(#" ++ id_of D n ++ lit ") " ++ w_color W c
  | VColor c => w_color W c
  | VViewBox p => w_viewbox W p
  | VAspectRatio p => w_ratio W p
  end.

(* An attribute as it is written. *)
Definition written (W : writers) (D : dom) (a : attr) (x : str * str) : Prop :=
  attr_label (a_name a) (fst x) /\
  snd x = match a_name a, a_value a with
          | QId A_Unicode, VString s => write_escaped s
          | _, v => value_str W D v
          end.

(* Attributes with an AttributeId, with a custom name, and the unicode attributes that are not strings. *)
Definition is_svg_attr (a : attr) : bool := match a_name a with QId _ => true | QName _ => false end.
Definition bad_unicode (a : attr) : bool :=
  match a_name a, a_value a with
  | QId A_Unicode, VString _ => false
  | QId A_Unicode, _ => true
  | _, _ => false
  end.
Definition attr_lt (a b : attr) : Prop :=
  match a_name a, a_name b with QId x, QId y => aid_idx x < aid_idx y | _, _ => False end.

(* [n] is a top level svg element; some node below it or itself has an href attribute. *)
Definition top_svg (D : dom) (F : forest) (n : nid) : Prop :=
  tag_name D n = QId E_Svg /\ parent_of F n = Some (droot D).
Definition needs_xlink (D : dom) (F : forest) (n : nid) : Prop :=
  exists m a, anc_or_self F n m /\ In a (attributes D m) /\ a_name a = QId A_Href.

Definition xmlns : str * str := (lit "xmlns", lit "http://www.w3.org/2000/svg").
Definition xmlns_xlink : str * str := (lit "xmlns:xlink", lit "http://www.w3.org/1999/xlink").
Inductive namespaces (D : dom) (F : forest) (n : nid) : list (str * str) -> Prop :=
| ns_none : ~ top_svg D F n -> namespaces D F n []
| ns_svg : top_svg D F n -> ~ needs_xlink D F n -> namespaces D F n [xmlns]
| ns_xlink : top_svg D F n -> needs_xlink D F n -> namespaces D F n [xmlns; xmlns_xlink].

(* The attributes of the start tag of [n]: namespaces, id, SVG attributes by AttributeId, the others as
   they are stored. *)
Definition start_tag (W : writers) (D : dom) (F : forest) (n : nid) (l : list (str * str)) : Prop :=
  exists ns svg svg_out custom_out,
    l = ns ++ (if str_eqb (id_of D n) [] then [] else [(lit "id", id_of D n)]) ++ svg_out ++ custom_out /\
    namespaces D F n ns /\
    Permutation svg (filter (fun a => is_svg_attr a && negb (bad_unicode a)) (attributes D n)) /\
    StronglySorted attr_lt svg /\
    Forall2 (written W D) svg svg_out /\
    Forall2 (written W D) (filter (fun a => negb (is_svg_attr a)) (attributes D n)) custom_out.

(* An item describes a tree of the document. *)
Inductive describes (W : writers) (D : dom) (F : forest) : tree -> xitem -> Prop :=
| de_element : forall b1 b2 n ts name attrs kids, node_type D n = NElement ->
    tag_label (tag_name D n) name -> start_tag W D F n attrs ->
    Forall2 (describes W D F) ts kids ->
    describes W D F (T n ts) (XElement b1 name attrs kids b2)
| de_comment : forall b n, node_type D n = NComment -> describes W D F (T n []) (XComment b (text_of D n))
| de_text : forall b n, node_type D n = NText -> describes W D F (T n []) (XText b (text_of D n)).

(* Only elements and the root have children. *)
Definition inner (D : dom) (F : forest) : Prop :=
  forall n p, parent_of F n = Some p -> is_element D p = true \/ p = droot D.

(* [x] is one of the items or inside of one of them. *)
Inductive occurs (x : xitem) : list xitem -> Prop :=
| oc_here : forall l, In x l -> occurs x l
| oc_in : forall b1 name attrs kids b2 l, In (XElement b1 name attrs kids b2) l -> occurs x kids -> occurs x l.

(* Attributes that do not clash with the names the writer adds, and custom names that are not SVG names. *)
Definition no_clash (a : attr) : Prop :=
  match a_name a with
  | QId x => x <> A_Id /\ x <> A_Xmlns
  | QName s => attribute_from_str s = Ok None /\
      s <> lit "xmlns:xlink" /\ s <> lit "xlink:href" /\ s <> lit "xml:space"
  end.

(* The names in the start tag of [n]: those of the namespaces, the id, and those of the attributes that are written. *)
Definition is_written (D : dom) (n : nid) (a : attr) : Prop := In a (attributes D n) /\ bad_unicode a = false.
Definition names_in_tag (D : dom) (F : forest) (n : nid) (s : str) : Prop :=
  s = lit "xmlns" /\ top_svg D F n \/
  s = lit "xmlns:xlink" /\ top_svg D F n /\ needs_xlink D F n \/
  s = lit "id" /\ id_of D n <> [] \/
  exists a, is_written D n a /\ attr_label (a_name a) s.
(* Two of these have the same name. *)
Definition tag_clash (D : dom) (F : forest) (n : nid) : Prop :=
  (exists a b s, is_written D n a /\ is_written D n b /\ a_name a <> a_name b /\ attr_label (a_name a) s /\ attr_label (a_name b) s) \/
  exists a, is_written D n a /\
    (attr_label (a_name a) (lit "id") /\ id_of D n <> [] \/
     attr_label (a_name a) (lit "xmlns") /\ top_svg D F n \/
     attr_label (a_name a) (lit "xmlns:xlink") /\ top_svg D F n /\ needs_xlink D F n).

(* Text elements are not nested, and no custom element is called text. *)
Definition flat_text (D : dom) (F : forest) : Prop :=
  (forall n m, tag_name D n = QId E_Text -> tag_name D m = QId E_Text -> anc_or_self F n m -> n = m) /\
  (forall n, tag_name D n <> QName (lit "text")).

(* White space is preserved exactly inside of text elements, their end tag included. *)
Inductive preserved : bool -> xitem -> Prop :=
| pr_element : forall inside name attrs kids,
    Forall (preserved (inside || str_eqb name (lit "text"))) kids ->
    preserved inside (XElement inside name attrs kids (inside || str_eqb name (lit "text")))
| pr_comment : forall inside s, preserved inside (XComment inside s)
| pr_text : forall inside s, preserved inside (XText inside s).

(* White space is preserved from the start tag of each text element to the next end tag of a text element; the
   flags of the items that describe [t], if the flag is the first argument before them and the last one after. *)
Inductive flagged (D : dom) : bool -> tree -> xitem -> bool -> Prop :=
| fl_text : forall st st' n ts name attrs kids, tag_name D n = QId E_Text -> flagged_all D true ts kids st' ->
    flagged D st (T n ts) (XElement st name attrs kids st') false
| fl_other : forall st st' n ts name attrs kids, tag_name D n <> QId E_Text -> flagged_all D st ts kids st' ->
    flagged D st (T n ts) (XElement st name attrs kids st') st'
| fl_comment : forall st n s, flagged D st (T n []) (XComment st s) st
| fl_str : forall st n s, flagged D st (T n []) (XText st s) st
with flagged_all (D : dom) : bool -> list tree -> list xitem -> bool -> Prop :=
| fa_nil : forall st, flagged_all D st [] [] st
| fa_cons : forall st st' st'' t ts x l, flagged D st t x st' -> flagged_all D st' ts l st'' -> flagged_all D st (t :: ts) (x :: l) st''.

(* The value of a hexadecimal and of a decimal digit. *)
Definition hex_val (c : chr) : option N :=
  if (48 <=? c) && (c <=? 57) then Some (c - 48)
  else if (97 <=? c) && (c <=? 102) then Some (c - 87)
  else if (65 <=? c) && (c <=? 70) then Some (c - 55) else None.
Definition dec_val (c : chr) : option N := if (48 <=? c) && (c <=? 57) then Some (c - 48) else None.

(* Decoding of character references. *)
Inductive dstate := DPlain | DAmp | DHash | DHex (v : option N) | DDec (v : N).
Fixpoint decode (st : dstate) (s : str) : option str :=
  match s with
  | [] => match st with DPlain => Some [] | _ => None end
  | c :: t =>
      match st with
      | DPlain => if c =? 38 then decode DAmp t else option_map (cons c) (decode DPlain t)
      | DAmp => if c =? 35 then decode DHash t else None
      | DHash => if c =? 120 then decode (DHex None) t
                 else match dec_val c with Some d => decode (DDec d) t | None => None end
      | DHex v =>
          match hex_val c with
          | Some d => decode (DHex (Some (16 * match v with Some x => x | None => 0 end + d))) t
          | None => match v with
                    | Some x => if c =? 59 then option_map (cons x) (decode DPlain t) else None
                    | None => None
                    end
          end
      | DDec x =>
          match dec_val c with
          | Some d => decode (DDec (10 * x + d)) t
          | None => if c =? 59 then option_map (cons x) (decode DPlain t) else None
          end
      end
  end.

(* Reading an id reference: #id up to a space or the end, url(#id) up to the parenthesis; the rest of the
   text is returned too. *)
Fixpoint take_until (stop : chr -> bool) (s : str) : str * str :=
  match s with
  | [] => ([], [])
  | c :: t => if stop c then ([], s) else let r := take_until stop t in (c :: fst r, snd r)
  end.
Definition iri_end (c : chr) : bool := (c =? 32) || (c =? 41).
Definition read_ref (s : str) : option (str * str) :=
  match s with
  | 35 :: t => Some (take_until iri_end t)
  | 117 :: 114 :: 108 :: 40 :: 35 :: t =>
      let r := take_until iri_end t in
      match snd r with 41 :: rest => Some (fst r, rest) | _ => None end
  | _ => None
  end.
Definition plain_id (s : str) : Prop := Forall (fun c => iri_end c = false) s.
