(* C45-C50, C54: the written output. *)
From Coq Require Import String List Bool PeanoNat NArith Permutation Sorted.
From Verif Require Import Base Ids Names Links Tree ForestSpec TreeSpec Data Attrs Slab NodeApi Doc History DocSpec
  HistoryProofs ApiProofs DocApi Samples TextSamples Writer WriterSpec WriterProofs WriterApi WriterSamples.
Import ListNotations.
Open Scope string_scope.
Open Scope nat_scope.
Open Scope list_scope.

(* C45: writing succeeds, and a reader rebuilds the tree of the document. *)
Theorem C45_tree W D F ts : reachable D -> shows (lk D) F -> inner D F ->
  tree_at F (T (droot D) ts) ->
  exists evs items, write_dom W D = Ok evs /\ read_back evs = Some items /\ Forall2 (describes W D F) ts items.
Proof. exact (writer_tree W D F ts). Qed.
Print Assumptions C45_tree.
Example C45_case : (exists F, writable wdoc F wdoc_trees) /\
  exists evs, write_dom sample_writers wdoc = Ok evs /\ read_back evs = Some
   [XElement false (lit "svg") [xmlns; xmlns_xlink]
     [ XElement false (lit "g") []
         [ XElement false (lit "rect")
             [(lit "fill", lit "url(#lg) none"); (lit "opacity", lit "0.5"); (lit "data-x", lit "7")] [] false;
           XElement false (lit "circle") [(lit "stroke", lit "url(#lg)"); (lit "unicode", lit "&#x61;&#x26;")] [] false ] false;
       XElement false (lit "text") [] [XText true (lit "hi")] true;
       XElement false (lit "linearGradient") [(lit "id", lit "lg")] [] false;
       XElement false (lit "linearGradient") [(lit "id", lit "lg2"); (lit "xlink:href", lit "#lg")] [] false ] false ].
Proof. split; [exact wdoc_writable|]. apply ok_case. vm_compute. reflexivity. Qed.

(* C46: the start tags of the output are those of the elements, with all attributes in order.  Missing
   from the full claim: a unicode attribute that is not a string is not written. *)
Theorem C46_start_tags_partial W D F ts : reachable D -> shows (lk D) F -> inner D F ->
  tree_at F (T (droot D) ts) ->
  exists evs items, write_dom W D = Ok evs /\ read_back evs = Some items /\
    (forall n, anc_or_self F (droot D) n -> is_element D n = true ->
       exists b1 name attrs kids b2, occurs (XElement b1 name attrs kids b2) items /\
         tag_label (tag_name D n) name /\ start_tag W D F n attrs) /\
    (forall b1 name attrs kids b2, occurs (XElement b1 name attrs kids b2) items ->
       exists n, anc_or_self F (droot D) n /\ is_element D n = true /\
         tag_label (tag_name D n) name /\ start_tag W D F n attrs).
Proof. exact (writer_tags W D F ts). Qed.
Print Assumptions C46_start_tags_partial.
Example C46_case : (exists F, writable wdoc F wdoc_trees) /\
  map a_name (attributes wdoc 3) = [QId A_Fill; QId A_Opacity; QName (lit "data-x")] /\
  map a_name (attributes wdoc 4) = [QId A_Stroke; QId A_Unicode].
Proof. split; [exact wdoc_writable|]. vm_compute. tauto. Qed.
Theorem C46_every_attribute_refuted : exists W D F ts n a evs,
  reachable_tame D /\ shows (lk D) F /\ inner D F /\ tree_at F (T (droot D) ts) /\ anc_or_self F (droot D) n /\
  In a (attributes D n) /\ a_name a = QId A_Unicode /\ write_dom W D = Ok evs /\
  forall v, ~ In (EAttr (lit "unicode") v) evs /\ ~ In (ERaw (lit "unicode") v) evs.
Proof.
  destruct odd_unicode_writable as (F & _ & S & Hi & Ht).
  assert (Hn : anc_or_self F (droot odd_unicode) 4).
  { apply (ForestFacts.preorder_iff F _ 4 (sh_wf _ _ S) Ht). vm_compute. tauto. }
  destruct (ok_case (write_dom sample_writers odd_unicode)
    (fun evs => forallb (fun e => match e with EAttr s _ | ERaw s _ => negb (str_eqb s (lit "unicode")) | _ => true end) evs = true))
    as (evs & E & H); [vm_compute; reflexivity|].
  exists sample_writers, odd_unicode, F, wdoc_trees, 4, (mkAttr (QId A_Unicode) (VNumber SpecFloat.S754_nan)), evs.
  split; [exact odd_unicode_tame|]. split; [exact S|]. split; [exact Hi|]. split; [exact Ht|]. split; [exact Hn|].
  split; [vm_compute; tauto|]. split; [reflexivity|]. split; [exact E|].
  intros v. rewrite forallb_forall in H. split; intros Hin; specialize (H _ Hin); vm_compute in H; discriminate H.
Qed.
Print Assumptions C46_every_attribute_refuted.

(* C47: names in a start tag are unique.  Missing: custom names that are also written for another
   reason, and attributes with the ids Id and Xmlns. *)
Theorem C47_unique_partial W D F ts : reachable D -> shows (lk D) F -> inner D F ->
  tree_at F (T (droot D) ts) ->
  (forall n a, anc_or_self F (droot D) n -> In a (attributes D n) -> no_clash a) ->
  exists evs items, write_dom W D = Ok evs /\ read_back evs = Some items /\
    (forall b1 name attrs kids b2, occurs (XElement b1 name attrs kids b2) items -> NoDup (map fst attrs)).
Proof. exact (writer_unique W D F ts). Qed.
Print Assumptions C47_unique_partial.
(* The exact condition, tag by tag: no two of the written attributes, the id and the namespaces share a name.
   Every start tag of the output is one of these, C46_start_tags_partial. *)
Theorem C47_exact_partial W D F n attrs : reachable D -> shows (lk D) F -> start_tag W D F n attrs ->
  (NoDup (map fst attrs) <-> ~ tag_clash D F n).
Proof. exact (writer_unique_exact W D F n attrs). Qed.
Print Assumptions C47_exact_partial.
Example C47_case : (exists F, writable wdoc F wdoc_trees) /\
  (forall n a, In a (attributes wdoc n) -> no_clash a).
Proof.
  split; [exact wdoc_writable|]. apply sample_clash; [exact (tame_reachable _ wdoc_tame)|]. vm_compute. reflexivity.
Qed.
Theorem C47_custom_refuted : exists W D F ts evs items b1 name attrs kids b2,
  reachable_tame D /\ shows (lk D) F /\ inner D F /\ tree_at F (T (droot D) ts) /\
  write_dom W D = Ok evs /\ read_back evs = Some items /\
  occurs (XElement b1 name attrs kids b2) items /\ ~ NoDup (map fst attrs).
Proof.
  destruct two_fills_writable as (F & _ & S & Hi & Ht).
  destruct (ok_case (write_dom sample_writers two_fills)
    (fun evs => exists items, read_back evs = Some items /\ occurs (XElement false (lit "rect")
       [(lit "fill", lit "url(#lg) none"); (lit "opacity", lit "0.5"); (lit "fill", lit "red")] [] false) items))
    as (evs & E & items & Er & Ho).
  { vm_compute. eexists. split; [reflexivity|]. eapply oc_in; [left; reflexivity|].
    eapply oc_in; [left; reflexivity|]. constructor. left. reflexivity. }
  exists sample_writers, two_fills, F, wdoc_trees, evs, items, false, (lit "rect"),
    [(lit "fill", lit "url(#lg) none"); (lit "opacity", lit "0.5"); (lit "fill", lit "red")], [], false.
  split; [exact two_fills_tame|]. split; [exact S|]. split; [exact Hi|]. split; [exact Ht|]. split; [exact E|].
  split; [exact Er|]. split; [exact Ho|]. intros H. inversion H as [|x l Hx _]. apply Hx. right. left. reflexivity.
Qed.
Print Assumptions C47_custom_refuted.
Theorem C47_id_refuted : exists W D evs,
  reachable_tame D /\ write_dom W D = Ok evs /\
  exists a b, evs = a ++ [EAttr (lit "id") (lit "lg"); ERaw (lit "id") (lit "x")] ++ b.
Proof.
  destruct (ok_case (write_dom sample_writers two_ids)
    (fun evs => exists a b, evs = a ++ [EAttr (lit "id") (lit "lg"); ERaw (lit "id") (lit "x")] ++ b)) as (evs & E & H).
  { vm_compute.
    match goal with |- exists a b, ?l = _ => exists (firstn 18 l), (skipn 20 l) end. vm_compute. reflexivity. }
  exists sample_writers, two_ids, evs. split; [exact two_ids_tame|]. now split.
Qed.
Print Assumptions C47_id_refuted.

(* C48: namespaces.  Missing: elements with an attribute that has the name of a namespace declaration. *)
Theorem C48_namespaces_partial W D F ts : reachable D -> shows (lk D) F -> inner D F ->
  tree_at F (T (droot D) ts) ->
  (forall n a, anc_or_self F (droot D) n -> In a (attributes D n) -> no_clash a) ->
  exists evs items, write_dom W D = Ok evs /\ read_back evs = Some items /\
    (forall b1 name attrs kids b2, occurs (XElement b1 name attrs kids b2) items ->
       exists n, anc_or_self F (droot D) n /\ is_element D n = true /\ start_tag W D F n attrs /\
         (In (lit "xmlns") (map fst attrs) <-> top_svg D F n) /\
         (In (lit "xmlns:xlink") (map fst attrs) <-> top_svg D F n /\ needs_xlink D F n)).
Proof. exact (writer_namespaces W D F ts). Qed.
Print Assumptions C48_namespaces_partial.
(* Exactly which names a start tag has, whatever the attributes are called. *)
Theorem C48_exact_partial W D F n attrs : start_tag W D F n attrs -> forall s, In s (map fst attrs) <-> names_in_tag D F n s.
Proof. exact (tag_names_exact W D F n attrs). Qed.
Print Assumptions C48_exact_partial.
Example C48_case : exists F, writable wdoc F wdoc_trees /\
  (forall n a, anc_or_self F (droot wdoc) n -> In a (attributes wdoc n) -> no_clash a) /\
  top_svg wdoc F 1 /\ needs_xlink wdoc F 1.
Proof.
  destruct wdoc_writable as (F & H). exists F. split; [exact H|]. destruct H as (R & S & Hi & Ht). split.
  { intros n a _. apply sample_clash; [exact R|]. vm_compute. reflexivity. }
  assert (Hp : forall n p, parent (lk wdoc) n = Some p -> parent_of F n = Some p).
  { intros n p E. now rewrite <- (sh_parent _ _ S). }
  split; [split; [vm_compute; reflexivity|apply Hp; vm_compute; reflexivity]|].
  exists 8, (mkAttr (QId A_Href) (VLink 7)). split; [|split; [vm_compute; tauto|reflexivity]].
  apply (aos_up F 1 8 1); [apply Hp; vm_compute; reflexivity|constructor].
Qed.
Theorem C48_elsewhere_refuted : exists W D F ts n evs v,
  reachable_tame D /\ shows (lk D) F /\ inner D F /\ tree_at F (T (droot D) ts) /\
  write_dom W D = Ok evs /\ ~ top_svg D F n /\ (exists a b, evs = a ++ [EStart (lit "g"); ERaw (lit "xmlns") v] ++ b) /\
  (forall m, anc_or_self F (droot D) m -> tag_name D m = QId E_G -> m = n).
Proof.
  destruct inner_xmlns_writable as (F & _ & S & Hi & Ht).
  destruct (ok_case (write_dom sample_writers inner_xmlns)
    (fun evs => exists a b, evs = a ++ [EStart (lit "g"); ERaw (lit "xmlns") (lit "x")] ++ b)) as (evs & E & H).
  { vm_compute. match goal with |- exists a b, ?l = _ => exists (firstn 3 l), (skipn 5 l) end. vm_compute. reflexivity. }
  exists sample_writers, inner_xmlns, F, wdoc_trees, 2, evs, (lit "x").
  split; [exact inner_xmlns_tame|]. split; [exact S|]. split; [exact Hi|]. split; [exact Ht|]. split; [exact E|].
  split; [intros (Hx & _); vm_compute in Hx; discriminate Hx|]. split; [exact H|].
  intros m Hm Hg. apply (ForestFacts.preorder_iff F _ m (sh_wf _ _ S) Ht) in Hm.
  vm_compute in Hm. repeat destruct Hm as [<-|Hm]; try (vm_compute in Hg; discriminate Hg); [reflexivity|destruct Hm].
Qed.
Print Assumptions C48_elsewhere_refuted.

(* C49: the unicode attribute.  Missing: strings that start with a character reference. *)
Theorem C49_unicode_partial s : (forall t, s <> lit "&#" ++ t) -> decode DPlain (write_escaped s) = Some s.
Proof. exact (unicode_survives s). Qed.
Print Assumptions C49_unicode_partial.
(* Nothing else survives: these strings are the only ones that are read back unchanged. *)
Theorem C49_exact_partial s : decode DPlain (write_escaped s) = Some s <-> forall t, s <> lit "&#" ++ t.
Proof. exact (unicode_exact s). Qed.
Print Assumptions C49_exact_partial.
Theorem C49_document_partial W D F ts : reachable D -> shows (lk D) F -> inner D F ->
  tree_at F (T (droot D) ts) ->
  exists evs items, write_dom W D = Ok evs /\ read_back evs = Some items /\
    (forall n s, anc_or_self F (droot D) n -> is_element D n = true ->
       In (mkAttr (QId A_Unicode) (VString s)) (attributes D n) -> (forall t, s <> lit "&#" ++ t) ->
       exists b1 name attrs kids b2 v, occurs (XElement b1 name attrs kids b2) items /\ start_tag W D F n attrs /\
         In (lit "unicode", v) attrs /\ decode DPlain v = Some s).
Proof. exact (writer_unicode W D F ts). Qed.
Print Assumptions C49_document_partial.
Example C49_case : (exists F, writable wdoc F wdoc_trees) /\
  In (mkAttr (QId A_Unicode) (VString (lit "a&"))) (attributes wdoc 4) /\ (forall t, lit "a&" <> lit "&#" ++ t) /\
  write_escaped [128512; 38; 35; 0]%N = lit "&#x1f600;&#x26;&#x23;&#x0;" /\
  decode DPlain (lit "&#x1f600;&#38;") = Some [128512; 38]%N.
Proof.
  split; [exact wdoc_writable|]. split; [vm_compute; tauto|]. split; [intros t E; discriminate E|].
  split; vm_compute; reflexivity.
Qed.
Theorem C49_reference_refuted : exists s, decode DPlain (write_escaped s) = Some (lit "A") /\ s <> lit "A".
Proof. exists (lit "&#x41;"). split; [vm_compute; reflexivity|]. intros E. discriminate E. Qed.
Print Assumptions C49_reference_refuted.

(* C50: links are written as references to the present id of their target. *)
Theorem C50_values W D n : plain_id (id_of D n) ->
  read_ref (write_value W D (VLink n)) = Some (id_of D n, []) /\
  read_ref (write_value W D (VFuncLink n)) = Some (id_of D n, []) /\
  (forall f, read_ref (write_value W D (VPaint n f)) =
     Some (id_of D n, match f with
                      | None => []
                      | Some FNone => lit " none"
                      | Some FCurrentColor => lit " currentColor"
                      | Some (FColor c) => lit " " ++ w_color W c
                      end)).
Proof. exact (link_text W D n). Qed.
Print Assumptions C50_values.
Theorem C50_text W D n :
  write_value W D (VLink n) = lit "#" ++ id_of D n /\
  write_value W D (VFuncLink n) = lit "url(#" ++ id_of D n ++ lit ")" /\
  write_value W D (VPaint n None) = lit "url(#" ++ id_of D n ++ lit ")" /\
  write_value W D (VPaint n (Some FNone)) = lit "url(#" ++ id_of D n ++ lit ") none" /\
  write_value W D (VPaint n (Some FCurrentColor)) = lit "url(#" ++ id_of D n ++ lit ") currentColor" /\
  (forall c, write_value W D (VPaint n (Some (FColor c))) = lit "url(#" ++ id_of D n ++ lit ") " ++ w_color W c).
Proof.
  split; [reflexivity|]. split; [reflexivity|]. split; [cbn [write_value]; now rewrite app_nil_r|].
  split; [reflexivity|]. split; reflexivity.
Qed.
Print Assumptions C50_text.
Theorem C50_document W D F ts : reachable D -> shows (lk D) F -> inner D F ->
  tree_at F (T (droot D) ts) ->
  exists evs items, write_dom W D = Ok evs /\ read_back evs = Some items /\
    (forall n a t, anc_or_self F (droot D) n -> is_element D n = true -> In a (attributes D n) ->
       a_name a <> QId A_Unicode -> link_target (a_value a) = Some t -> plain_id (id_of D t) ->
       exists b1 name attrs kids b2 s v rest, occurs (XElement b1 name attrs kids b2) items /\ start_tag W D F n attrs /\
         In (s, v) attrs /\ attr_label (a_name a) s /\ read_ref v = Some (id_of D t, rest)).
Proof. exact (writer_links W D F ts). Qed.
Print Assumptions C50_document.
Example C50_case : (exists F, writable wdoc F wdoc_trees) /\ plain_id (id_of wdoc 7) /\
  In (mkAttr (QId A_Fill) (VPaint 7 (Some FNone))) (attributes wdoc 3) /\
  read_ref (lit "url(#lg) none") = Some (lit "lg", lit " none").
Proof.
  split; [exact wdoc_writable|]. split; [vm_compute; repeat constructor|]. split; vm_compute; tauto.
Qed.

(* C54: white space is preserved inside of text elements and only there.  Missing: text elements inside
   of text elements, and custom elements called text. *)
Theorem C54_preserve_partial W D F ts : reachable D -> shows (lk D) F -> inner D F ->
  tree_at F (T (droot D) ts) -> flat_text D F ->
  exists evs items, write_dom W D = Ok evs /\ read_back evs = Some items /\ Forall (preserved false) items.
Proof. exact (writer_preserve W D F ts). Qed.
Print Assumptions C54_preserve_partial.
(* In every document: it is preserved from the start tag of a text element to the next end tag of one. *)
Theorem C54_exact_partial W D F ts : reachable D -> shows (lk D) F -> inner D F -> tree_at F (T (droot D) ts) ->
  exists evs items last, write_dom W D = Ok evs /\ read_back evs = Some items /\ Forall2 (describes W D F) ts items /\
    flagged_all D false ts items last.
Proof. exact (writer_flags W D F ts). Qed.
Print Assumptions C54_exact_partial.
Example C54_case : exists F, writable wdoc F wdoc_trees /\ flat_text wdoc F.
Proof.
  destruct wdoc_writable as (F & H). exists F. split; [exact H|]. destruct H as (R & S & _).
  apply flat_b_ok; [exact R|exact S|]. vm_compute. reflexivity.
Qed.
Theorem C54_nested_refuted : exists W D F ts evs items,
  reachable_tame D /\ shows (lk D) F /\ inner D F /\ tree_at F (T (droot D) ts) /\
  write_dom W D = Ok evs /\ read_back evs = Some items /\
  occurs (XElement false (lit "text") [] [XText true (lit "hi"); XElement true (lit "text") [] [] true; XText false (lit " b")] false)
    items.
Proof.
  destruct text_in_text_writable as (F & _ & S & Hi & Ht).
  destruct (ok_case (write_dom sample_writers text_in_text)
    (fun evs => exists items, read_back evs = Some items /\ occurs (XElement false (lit "text") []
       [XText true (lit "hi"); XElement true (lit "text") [] [] true; XText false (lit " b")] false) items))
    as (evs & E & items & Er & Ho).
  { vm_compute. eexists. split; [reflexivity|]. eapply oc_in; [left; reflexivity|]. constructor. right. left. reflexivity. }
  eexists sample_writers, text_in_text, F, _, evs, items. split; [exact text_in_text_tame|]. split; [exact S|].
  split; [exact Hi|]. split; [exact Ht|]. split; [exact E|]. split; [exact Er|]. exact Ho.
Qed.
Print Assumptions C54_nested_refuted.
