(* Concrete documents for the writer. *)
From Coq Require Import String List Bool PeanoNat NArith.
From Verif Require Import Base Ids Names Links Tree ForestSpec TreeSpec ForestFacts Data Attrs AttrFacts Slab NodeApi Doc History
  DocSpec Replay InvProofs HistoryProofs TreeApi ApiProofs DocApi Samples Text TextSpec TextSamples Writer WriterSpec.
Import ListNotations.
Open Scope string_scope.
Open Scope nat_scope.
Open Scope list_scope.

(* Writers for the crate types. *)
Definition sample_writers : writers :=
  mkWriters (fun _ => lit "1") (fun _ => lit "2mm") (fun _ => lit "#ff0000") (fun _ => lit "none") (fun _ => lit "1 2")
    (fun _ => lit "5deg") (fun _ => lit "1 2") (fun _ => lit "M 1 2") (fun _ => lit "1,2") (fun _ => lit "scale(2)")
    (fun _ => lit "0 0 1 2").

(* The hypotheses of the writer theorems, for a sample. *)
Definition writable (D : dom) (F : forest) (ts : list tree) : Prop :=
  reachable D /\ shows (lk D) F /\ inner D F /\ tree_at F (T (droot D) ts).
Lemma sample_writable D ts : reachable_tame D -> textual_b D = true -> tree_b (lk D) (T (droot D) ts) = true ->
  exists F, writable D F ts.
Proof.
  intros H T B. destruct (sample_forest D H T) as (F & S & X). exists F. split; [exact (tame_reachable D H)|].
  split; [exact S|]. split; [exact (tx_inner D F X)|]. exact (tree_b_ok D F _ S B).
Qed.

(* The document [doc] with a custom attribute on the rect and a unicode attribute on the circle. *)
Definition wdoc_ops : list op :=
  doc_ops ++ [ OSetAttribute 3 (mkAttr (QName (lit "data-x")) (VString (lit "7")));
               OSetAttribute 4 (mkAttr (QId A_Unicode) (VString (lit "a&"))) ].
Definition wdoc : dom := get (run all_check wdoc_ops).
Lemma wdoc_tame : reachable_tame wdoc.
Proof. apply sample_tame. vm_compute. reflexivity. Qed.
Definition wdoc_trees : list tree :=
  [T 1 [T 2 [T 3 []; T 4 []]; T 5 [T 6 []]; T 7 []; T 8 []]].
Lemma wdoc_writable : exists F, writable wdoc F wdoc_trees.
Proof. apply sample_writable; [exact wdoc_tame|vm_compute; reflexivity|vm_compute; reflexivity]. Qed.

(* No clashing names, checked node by node. *)
Definition clash_b (a : attr) : bool :=
  match a_name a with
  | QId x => negb (aid_eqb x A_Id) && negb (aid_eqb x A_Xmlns)
  | QName s => match attribute_from_str s with Ok None => true | _ => false end &&
      negb (str_eqb s (lit "xmlns:xlink")) && negb (str_eqb s (lit "xlink:href")) && negb (str_eqb s (lit "xml:space"))
  end.
Lemma clash_b_ok a : clash_b a = true -> no_clash a.
Proof.
  unfold clash_b, no_clash. destruct (a_name a) as [x|s]; intros H.
  - apply andb_true_iff in H. destruct H as (H1 & H2). split; intros ->; [discriminate H1|discriminate H2].
  - apply andb_true_iff in H. destruct H as (H & H3). apply andb_true_iff in H. destruct H as (H & H2).
    apply andb_true_iff in H. destruct H as (H & H1).
    assert (G : forall t, negb (str_eqb s t) = true -> s <> t).
    { intros t Ht ->. rewrite (proj2 (str_eqb_eq t t) eq_refl) in Ht. discriminate Ht. }
    split; [|split; [|split]]; auto. destruct (attribute_from_str s) as [[|]| |]; try discriminate H. reflexivity.
Qed.
Lemma sample_clash D : reachable D -> forallb (fun n => forallb clash_b (attributes D n)) (seq 0 (fresh D)) = true ->
  forall n a, In a (attributes D n) -> no_clash a.
Proof.
  intros R H n a Ha. apply clash_b_ok. rewrite forallb_forall in H. destruct (Nat.lt_ge_cases n (fresh D)) as [Hn|Hn].
  - specialize (H n). rewrite in_seq in H. specialize (H (conj (Nat.le_0_l n) Hn)). rewrite forallb_forall in H. auto.
  - exfalso. destruct (reachable_inv D R) as (F & I & _). unfold attributes in Ha. rewrite (iv_blank D F I n Hn) in Ha. destruct Ha.
Qed.

(* No nested texts, checked node by node with the list of ancestors. *)
Definition flat_b (D : dom) : bool :=
  forallb (fun m => negb (tag_eqb (tag_name D m) (QName (lit "text"))) &&
    (if has_tag_name D m (QId E_Text) then
       match Iter.ancestors (enough D) (lk D) m with
       | Ok l => forallb (fun n => negb (has_tag_name D n (QId E_Text)) || Nat.eqb n m) l
       | _ => false
       end else true)) (seq 0 (fresh D)).
Lemma simple_collect_anc L F : shows L F -> forall fuel s l, Iter.simple_collect fuel (parent L) s = Ok l ->
  forall p, s = Some p -> forall n, anc_or_self F n p -> In n l.
Proof.
  intros S. induction fuel as [|fuel IH]; intros s l H p -> n Ha; [discriminate H|]. cbn in H.
  destruct (Iter.simple_collect fuel (parent L) (parent L p)) as [l'| |] eqn:E; cbn in H; try discriminate H.
  injection H as <-. destruct Ha as [|a m q Hq Ha]; [now left|]. right. apply (IH _ _ E q); [|easy].
  now rewrite (sh_parent _ _ S).
Qed.
Lemma flat_b_ok D F : reachable D -> shows (lk D) F -> flat_b D = true -> flat_text D F.
Proof.
  intros R S H. pose proof (shows_inv D F R S) as I. unfold flat_b in H. rewrite forallb_forall in H.
  assert (Hin : forall m, m < fresh D -> In m (seq 0 (fresh D))).
  { intros m Hm. apply in_seq. split; [apply Nat.le_0_l|exact Hm]. }
  split.
  - intros n m Hn Hm Ha. destruct (Nat.lt_ge_cases m (fresh D)) as [Hlt|Hge].
    + specialize (H m (Hin m Hlt)). apply andb_true_iff in H. destruct H as (_ & H).
      unfold has_tag_name in H at 1. rewrite Hm in H. cbn [tag_eqb] in H. rewrite (proj2 (eid_eqb_eq _ _) eq_refl) in H.
      destruct (Iter.ancestors (enough D) (lk D) m) as [l| |] eqn:E; [|discriminate H..].
      rewrite forallb_forall in H.
      assert (Hl : In n l) by (apply (simple_collect_anc (lk D) F S _ _ l E m eq_refl); exact Ha).
      specialize (H n Hl). unfold has_tag_name in H. rewrite Hn in H. cbn [tag_eqb] in H.
      rewrite (proj2 (eid_eqb_eq _ _) eq_refl) in H. cbn [negb orb] in H. now apply Nat.eqb_eq.
    + exfalso. unfold tag_name in Hm. rewrite (iv_blank D F I m Hge) in Hm. discriminate Hm.
  - intros n Hn. destruct (Nat.lt_ge_cases n (fresh D)) as [Hlt|Hge].
    + specialize (H n (Hin n Hlt)). apply andb_true_iff in H. destruct H as (H & _). rewrite Hn in H.
      discriminate H.
    + unfold tag_name in Hn. rewrite (iv_blank D F I n Hge) in Hn. discriminate Hn.
Qed.

(* A unicode attribute that is a number. *)
Definition odd_unicode : dom :=
  get (run all_check (doc_ops ++ [OSetAttribute 4 (mkAttr (QId A_Unicode) (VNumber SpecFloat.S754_nan))])).
Lemma odd_unicode_tame : reachable_tame odd_unicode.
Proof. apply sample_tame. vm_compute. reflexivity. Qed.
Lemma odd_unicode_writable : exists F, writable odd_unicode F wdoc_trees.
Proof. apply sample_writable; [exact odd_unicode_tame|vm_compute; reflexivity|vm_compute; reflexivity]. Qed.

(* An attribute with the custom name fill beside the SVG attribute fill. *)
Definition two_fills : dom :=
  get (run all_check (doc_ops ++ [OSetAttribute 3 (mkAttr (QName (lit "fill")) (VString (lit "red")))])).
Lemma two_fills_tame : reachable_tame two_fills.
Proof. apply sample_tame. vm_compute. reflexivity. Qed.
Lemma two_fills_writable : exists F, writable two_fills F wdoc_trees.
Proof. apply sample_writable; [exact two_fills_tame|vm_compute; reflexivity|vm_compute; reflexivity]. Qed.

(* An attribute with the id Id beside the id of the node. *)
Definition two_ids : dom :=
  get (run all_check (doc_ops ++ [OSetAttribute 7 (mkAttr (QId A_Id) (VString (lit "x")))])).
Lemma two_ids_tame : reachable_tame two_ids.
Proof. apply sample_tame. vm_compute. reflexivity. Qed.

(* xmlns as a custom attribute of an inner element. *)
Definition inner_xmlns : dom :=
  get (run all_check (doc_ops ++ [OSetAttribute 2 (mkAttr (QName (lit "xmlns")) (VString (lit "x")))])).
Lemma inner_xmlns_tame : reachable_tame inner_xmlns.
Proof. apply sample_tame. vm_compute. reflexivity. Qed.
Lemma inner_xmlns_writable : exists F, writable inner_xmlns F wdoc_trees.
Proof. apply sample_writable; [exact inner_xmlns_tame|vm_compute; reflexivity|vm_compute; reflexivity]. Qed.

(* A text element inside of a text element, followed by text. *)
Definition text_in_text : dom :=
  get (run all_check (doc_ops ++ [ OCreateElement (QId E_Text); OAppend 5 9; OCreateNode NText (lit " b"); OAppend 5 10 ])).
Lemma text_in_text_tame : reachable_tame text_in_text.
Proof. apply sample_tame. vm_compute. reflexivity. Qed.
Lemma text_in_text_writable : exists F, writable text_in_text F
  [T 1 [T 2 [T 3 []; T 4 []]; T 5 [T 6 []; T 9 []; T 10 []]; T 7 []; T 8 []]].
Proof. apply sample_writable; [exact text_in_text_tame|vm_compute; reflexivity|vm_compute; reflexivity]. Qed.
