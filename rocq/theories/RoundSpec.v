(* Specification of writing a document and parsing the file again: how XML reads the output, which
   documents survive, and when two documents are the same. *)
From Coq Require Import String List Bool PeanoNat NArith.
From Verif Require Import Base Ids Data AttrSpec ForestSpec TreeSpec Names Attrs NodeApi Text TextSpec Writer WriterSpec
  Parser ParserSpec.
Import ListNotations.
Open Scope string_scope.
Open Scope nat_scope.
Open Scope list_scope.

(* ---- reading the output as XML with namespaces *)

(* The namespaces in scope: the default one and those with a prefix. *)
Record nsenv := mkEnv { e_default : option str; e_prefixes : list (str * str) }.
Definition no_env : nsenv := mkEnv None [(lit "xml", ns_xml)].
Definition bound (e : nsenv) (p : str) : option str :=
  option_map snd (find (fun x => str_eqb (fst x) p) (e_prefixes e)).

(* A name at its first colon: prefix and local part. *)
Fixpoint split_name (s : str) : option (str * str) :=
  match s with
  | [] => None
  | c :: t => if (c =? 58)%N then Some ([], t) else option_map (fun r => (c :: fst r, snd r)) (split_name t)
  end.

(* xmlns and xmlns:prefix. *)
Definition declare (e : nsenv) (x : str * str) : nsenv :=
  if str_eqb (fst x) (lit "xmlns") then mkEnv (Some (snd x)) (e_prefixes e)
  else match split_name (fst x) with
       | Some (p, l) => if str_eqb p (lit "xmlns") then mkEnv (e_default e) ((l, snd x) :: e_prefixes e) else e
       | None => e
       end.
Definition is_declaration (x : str * str) : bool :=
  str_eqb (fst x) (lit "xmlns") ||
  match split_name (fst x) with Some (p, _) => str_eqb p (lit "xmlns") | None => false end.

(* The characters XML takes as they are: in attribute values, in texts, in comments. *)
Definition xml_char (c : chr) : bool := ((c =? 9) || (c =? 10) || (32 <=? c))%N.
Definition attr_char (c : chr) : bool := ((32 <=? c) && negb (existsb (N.eqb c) [60; 34; 39]))%N.
Definition text_char (c : chr) : bool := (xml_char c && negb (existsb (N.eqb c) [38; 60; 62]))%N.

(* An attribute value is decoded. *)
Definition value_of (raw v : str) : Prop := forallb attr_char raw = true /\ decode DPlain raw = Some v.

Inductive reads_attr (e : nsenv) : str * str -> xattr -> Prop :=
| ra_plain : forall name raw v, split_name name = None -> value_of raw v -> reads_attr e (name, raw) (mkXattr None name v)
| ra_prefix : forall name raw p l ns v, split_name name = Some (p, l) -> bound e p = Some ns -> value_of raw v ->
    reads_attr e (name, raw) (mkXattr (Some ns) l v).

Inductive reads_name (e : nsenv) : str -> option str -> str -> Prop :=
| rdn_plain : forall name, split_name name = None -> reads_name e name (e_default e) name
| rdn_prefix : forall name p l ns, split_name name = Some (p, l) -> bound e p = Some ns -> reads_name e name (Some ns) l.

(* Neighbouring texts are one text, empty texts are nothing. *)
Fixpoint merged (l : list xml) : list xml :=
  match l with
  | [] => []
  | XmlText s :: t =>
      match merged t with
      | XmlText u :: r => XmlText (s ++ u) :: r
      | r => match s with [] => r | _ :: _ => XmlText s :: r end
      end
  | x :: t => x :: merged t
  end.

(* A comment XML can hold. *)
Definition comment_ok (s : str) : Prop :=
  forallb xml_char s = true /\ (forall a b, s <> a ++ lit "--" ++ b) /\ (forall a, s <> a ++ lit "-").

(* Where white space is not preserved, the writer may indent: before every tag, text and comment. *)
Inductive gap : bool -> list xml -> Prop :=
| gap_none : forall b, gap b []
| gap_white : forall s, forallb white s = true -> gap false [XmlText s].
Definition item_flag (x : xitem) : bool :=
  match x with XElement b _ _ _ _ | XComment b _ | XText b _ => b end.

(* [reads e x y]: the item [x] is read as the node [y]; [reads_all e b l ys]: the items [l] up to an end
   tag written with the flag [b] are read as [ys].  Start tags have no attribute twice. *)
Inductive reads : nsenv -> xitem -> xml -> Prop :=
| rd_element : forall e b1 name attrs kids b2 ns local xattrs ys,
    NoDup (map fst attrs) ->
    reads_name (fold_left declare attrs e) name ns local ->
    Forall2 (reads_attr (fold_left declare attrs e)) (filter (fun x => negb (is_declaration x)) attrs) xattrs ->
    reads_all (fold_left declare attrs e) b2 kids ys ->
    reads e (XElement b1 name attrs kids b2) (XmlElement ns local xattrs (merged ys))
| rd_comment : forall e b s, comment_ok s -> reads e (XComment b s) (XmlComment s)
| rd_text : forall e b s, forallb text_char s = true -> reads e (XText b s) (XmlText s)
with reads_all : nsenv -> bool -> list xitem -> list xml -> Prop :=
| rd_nil : forall e b g, gap b g -> reads_all e b [] g
| rd_cons : forall e b g x y l ys, gap (item_flag x) g -> reads e x y -> reads_all e b l ys ->
    reads_all e b (x :: l) (g ++ y :: ys).

(* The whole file. *)
Definition reads_file (items : list xitem) (top : list xml) : Prop :=
  exists ys, reads_all no_env false items ys /\ top = merged ys.

(* ---- documents that survive *)

(* The text of an attribute in the file, decoded. *)
Definition value_text (W : writers) (D : dom) (x : attr) : str :=
  match a_name x, a_value x with
  | QId A_Unicode, VString s => s
  | _, v => value_str W D v
  end.
(* It can be written. *)
Definition value_ok (W : writers) (D : dom) (x : attr) : Prop :=
  match a_name x, a_value x with
  | QId A_Unicode, VString s => forall t, s <> lit "&#" ++ t
  | QId A_Unicode, _ => False
  | _, v => forallb (fun c => attr_char c && negb (c =? 38)%N) (value_str W D v) = true
  end.

(* The crates read back what they wrote: a reference is the reference to the id of the target, which is
   the first node with this id; another value is itself, or a reference without target that ends up as
   this value. *)
Definition survives (P : values) (W : writers) (D : dom) (t : tree) (e : eid) (n : nid) (a : aid) (x : attr) : Prop :=
  match link_target (a_value x) with
  | Some y =>
      meaning P e (a, value_text W D x) = OLink (id_of D y) (fallback_of (a_value x)) /\
      id_of D y <> [] /\ id_of D y <> id_of D n /\ first_with_id D t (id_of D y) = Some y
  | None =>
      meaning P e (a, value_text W D x) = OValue (a_value x) \/
      exists iri fb, meaning P e (a, value_text W D x) = OLink iri fb /\ first_with_id D t iri = None /\
        instead (mkLink a iri fb n) = a_value x
  end.

(* A node inside of a text element. *)
Definition in_text (D : dom) (F : forest) (n : nid) : Prop :=
  exists a, anc_or_self F a n /\ tag_name D a = QId E_Text.

Record portable (P : values) (W : writers) (D : dom) (F : forest) (t : tree) : Prop := {
  (* the root is not inside of another node; below it are one svg element and otherwise only comments *)
  po_root : parent_of F (droot D) = None;
  po_top : exists l1 s l2, t_kids t = l1 ++ s :: l2 /\ is_element D (t_node s) = true /\
             tag_name D (t_node s) = QId E_Svg /\ forall c, In c (l1 ++ l2) -> node_type D (t_node c) = NComment;
  (* only elements have children *)
  po_inner : inner D F;
  (* SVG elements, no style elements; tspan and tref only inside of text, which is not nested *)
  po_tag : forall n, In n (preorder t) -> is_element D n = true ->
             exists e, tag_name D n = QId e /\ e <> E_Style /\ (e = E_Tspan \/ e = E_Tref -> in_text D F n);
  po_flat : flat_text D F;
  (* ids, SVG attributes *)
  po_id : forall n, In n (preorder t) -> forallb (fun c => attr_char c && negb (c =? 38)%N) (id_of D n) = true;
  po_attr : forall n x, In n (preorder t) -> In x (attributes D n) ->
              exists a e, a_name x = QId a /\ tag_name D n = QId e /\ special a = false /\ a <> A_Xmlns /\
                value_ok W D x /\ survives P W D t e n a x;
  (* comments and texts *)
  po_comment : forall n, In n (preorder t) -> node_type D n = NComment -> comment_ok (text_of D n);
  po_text : forall n, In n (preorder t) -> is_text D n = true ->
              text_of D n <> [] /\ forallb text_char (text_of D n) = true /\
              ((exists c, In c (text_of D n) /\ is_white c = false) \/
               exists p e, parent_of F n = Some p /\ tag_name D p = QId e /\ white_matters (Some e) = true);
  po_apart : forall p l1 a b l2, children_of F p = l1 ++ a :: b :: l2 -> is_text D a = true -> is_text D b = true -> False
}.

(* The texts are as text processing leaves them, group by group: a single text is normalised (or has only
   plain spaces, inside of a text element), many texts are inside of text elements and normalised
   together, or all preserved.  Texts of no group are inside of text elements. *)
Definition settled_group (D : dom) (F : forest) (m : xmlspace) (g : tree) : Prop :=
  (exists n, texts D g = [n] /\
     match m with Default => normal (text_of D n) = text_of D n
                | Preserve => spaced (text_of D n) = text_of D n /\ in_text D F n end) \/
  ((forall n, In n (texts D g) -> in_text D F n) /\
   ((forall n, In n (texts D g) -> tmode D F m n = Default /\ inked (text_of D n)) /\
      normal (all_text (text_of D) (texts D g)) = all_text (text_of D) (texts D g) \/
    (forall n, In n (texts D g) -> tmode D F m n = Preserve /\ spaced (text_of D n) = text_of D n))).
Definition settled (D : dom) (F : forest) (t : tree) : Prop :=
  (forall m g, In (m, g) (flat_map (groups D Default) (t_kids t)) -> settled_group D F m g) /\
  (forall n, In n (preorder t) -> is_text D n = true ->
     (forall m g, In (m, g) (flat_map (groups D Default) (t_kids t)) -> ~ In n (texts D g)) -> in_text D F n).

(* ---- the same document *)

(* Trees of the same shape; nodes at the same place. *)
Inductive same_shape : tree -> tree -> Prop :=
| ss_node : forall n n' ts ts', Forall2 same_shape ts ts' -> same_shape (T n ts) (T n' ts').
Definition same_place (t t' : tree) (n n' : nid) : Prop := In (n, n') (combine (preorder t) (preorder t')).

(* The same value: links lead to the same place. *)
Inductive same_value (t t' : tree) : avalue -> avalue -> Prop :=
| sv_plain : forall v, link_target v = None -> same_value t t' v v
| sv_link : forall x x', same_place t t' x x' -> same_value t t' (VLink x) (VLink x')
| sv_func : forall x x', same_place t t' x x' -> same_value t t' (VFuncLink x) (VFuncLink x')
| sv_paint : forall x x' fb, same_place t t' x x' -> same_value t t' (VPaint x fb) (VPaint x' fb).

Record same_node (t t' : tree) (D D' : dom) (n n' : nid) : Prop := {
  sd_type : node_type D' n' = node_type D n;
  sd_tag  : tag_name D' n' = tag_name D n;
  sd_id   : id_of D' n' = id_of D n;
  sd_text : node_type D n = NText \/ node_type D n = NComment -> text_of D' n' = text_of D n;
  sd_attr : forall q v, In (mkAttr q v) (attributes D n) ->
              exists v', In (mkAttr q v') (attributes D' n') /\ same_value t t' v v';
  sd_back : forall q v', In (mkAttr q v') (attributes D' n') ->
              exists v, In (mkAttr q v) (attributes D n) /\ same_value t t' v v'
}.
Definition same_document (D : dom) (t : tree) (D' : dom) (t' : tree) : Prop :=
  same_shape t t' /\ forall n n', same_place t t' n n' -> same_node t t' D D' n n'.
