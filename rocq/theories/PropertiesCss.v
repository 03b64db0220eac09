(* C67: style sheets. *)
From Coq Require Import String List Bool PeanoNat Lia.
From Verif Require Import Base Ids Data Parser ParserSpec ParserSamples Css CssSpec CssProofs AttrFacts.
Import ListNotations.
Open Scope string_scope.
Open Scope nat_scope.
Open Scope list_scope.

(* C67 as stated is false for `+` and `:first-child`: the "previous sibling" of an element is the element
   itself.  Exactly what the code selects: `:first-child` nothing, and `E + F` what is both E and F. *)
Theorem C67_exact_partial top s q : is_element_at top q ->
  selector_matches (stored s) top q = true <-> selects_with top (fun _ => False) (fun p q => p = q) s q.
Proof. exact (matches_iff top s q). Qed.
Print Assumptions C67_exact_partial.
Theorem C67_selects_partial top s q : sibling_free s -> is_element_at top q ->
  selector_matches (stored s) top q = true <-> selects top s q.
Proof. exact (matches_free top s q). Qed.
Print Assumptions C67_selects_partial.
Theorem C67_sheet_partial sheet top q : (forall s ds, In (s, ds) sheet -> sibling_free s) -> is_element_at top q ->
  forall d, In d (sheet_decls (map (fun r => css_rule (stored (fst r)) (snd r)) sheet) top q) <->
    exists s ds, In (s, ds) sheet /\ selects top s q /\ In d (flat_map sheet_decl ds).
Proof. exact (sheet_free sheet top q). Qed.
Print Assumptions C67_sheet_partial.

Definition any : compound := mkCompound None [].
Definition tagged (s : string) : compound := mkCompound (Some (lit s)) [].
Definition css_doc : list xml :=
  [el "svg" [] [tx " "; el "g" [at_ "class" "a"] [el "rect" [at_ "id" "r"] []; tx "x"; el "circle" [] []]]].

Lemma css_element q : xml_is_element css_doc q = true -> is_element_at css_doc q.
Proof. apply elements_iff. Qed.

(* svg .a > rect, for the rectangle; not for the circle. *)
Definition css_sel : css :=
  Child (Descendant (Just (tagged "svg")) (mkCompound None [HasAttribute (lit "class") (str_eqb (lit "a"))])) (tagged "rect").
Example C67_case : sibling_free css_sel /\ is_element_at css_doc [0; 1; 0] /\ selects css_doc css_sel [0; 1; 0] /\
  is_element_at css_doc [0; 1; 2] /\ ~ selects css_doc css_sel [0; 1; 2].
Proof.
  assert (Hf : sibling_free css_sel) by (unfold css_sel, sibling_free, no_first; cbn; intuition discriminate).
  assert (H1 : is_element_at css_doc [0; 1; 0]) by (apply css_element; vm_compute; reflexivity).
  assert (H2 : is_element_at css_doc [0; 1; 2]) by (apply css_element; vm_compute; reflexivity).
  split; [exact Hf|]. split; [exact H1|]. split; [|split; [exact H2|]].
  - apply (C67_selects_partial css_doc css_sel [0; 1; 0] Hf H1). vm_compute. reflexivity.
  - intros H. apply (C67_selects_partial css_doc css_sel [0; 1; 2] Hf H2) in H. vm_compute in H. discriminate H.
Qed.
Example C67_sheet_case : In (A_Fill, lit "red")
  (sheet_decls (map (fun r => css_rule (stored (fst r)) (snd r)) [(css_sel, [(lit "fill", lit "red")])]) css_doc [0; 1; 0]).
Proof. vm_compute. tauto. Qed.

(* rect + circle does not find the circle, and * + rect finds the first child. *)
Theorem C67_adjacent_refuted : exists top s q s' q', is_element_at top q /\ is_element_at top q' /\
  selects top s q /\ selector_matches (stored s) top q = false /\
  ~ selects top s' q' /\ selector_matches (stored s') top q' = true.
Proof.
  exists css_doc, (Adjacent (Just (tagged "rect")) (tagged "circle")), [0; 1; 2], (Adjacent (Just any) (tagged "rect")), [0; 1; 0].
  split; [apply css_element; vm_compute; reflexivity|]. split; [apply css_element; vm_compute; reflexivity|].
  split; [|split; [vm_compute; reflexivity|split; [|vm_compute; reflexivity]]].
  - unfold selects. cbn [selects_with]. split.
    + split; [|easy]. intros name [= <-]. now exists [], (Some (lit "http://www.w3.org/2000/svg")), [].
    + exists [0; 1; 0]. split.
      * exists [0; 1], 0, 2. split; [easy|]. split; [easy|]. split; [lia|]. split; [apply css_element; vm_compute; reflexivity|].
        intros k Hk. replace k with 1 by lia. intros H. apply elements_iff in H. vm_compute in H. discriminate H.
      * split; [|easy]. intros name [= <-]. now exists [at_ "id" "r"], (Some (lit "http://www.w3.org/2000/svg")), [].
  - intros (_ & p & (r & i & j & -> & E & Hij & _) & _). change [0; 1; 0] with ([0; 1] ++ [0]) in E. apply app_inj_tail in E. lia.
Qed.
Print Assumptions C67_adjacent_refuted.
Theorem C67_first_child_refuted : exists top s q, is_element_at top q /\ selects top s q /\ selector_matches (stored s) top q = false.
Proof.
  exists css_doc, (Just (mkCompound None [FirstChild])), [0; 1; 0]. split; [apply css_element; vm_compute; reflexivity|].
  split; [|vm_compute; reflexivity]. split; [easy|]. intros x [<-|[]]. exists [0; 1], 0. split; [easy|]. lia.
Qed.
Print Assumptions C67_first_child_refuted.
