(* The users of a node of a parsed document. *)
From Coq Require Import String List Bool PeanoNat NArith Lia.
From Verif Require Import Base Ids Links Tree Iter ForestSpec TreeSpec Data Attrs Slab NodeApi AttrSpec Doc History DocSpec
  ListFacts TreeProofs ForestFacts IterSpec IterProofs AttrFacts LinkProofs SlabProofs PruneFacts RemoveProofs InvProofs
  HistoryProofs DrainProofs CopyProofs TreeApi ApiProofs DocApi TidyProofs RootProofs Names NamesProofs Types Text TextSpec Loops
  TextProofs TextApi Parser ValueSpec ValueProofs ParserSpec ParserProofs ParserTree ParserLinks ParserApi ParserFacts ParserMeaning ParserStatements
  KeyProofs.
Import ListNotations.
Open Scope nat_scope.
Open Scope list_scope.

Theorem users_kept_or_removed P top D t n u : parse_svg P (Some top) = Ok (POk D) ->
  document_tree D t -> In u (linked_nodes D n) -> In u (preorder t) \/ is_detached D u = true.
Proof.
  intros E Ht Hu. destruct (parse_run P top D E) as (_ & D1 & D2 & F & F3 & t0 & ls & R & _).
  rewrite (document_unique D t (final_tree D2 D t0) Ht) by now apply (run_document P top D1 D2 D F F3 t0 ls).
  pose proof (shows_inv D F3 (tame_reachable D (run_tame P top D1 D2 D F F3 t0 ls R)) (run_shows P top D1 D2 D F F3 t0 ls R)) as I.
  assert (Hc : 0 < count_links n (attributes D u)).
  { rewrite <- (li_sym D (iv_link D F3 I)). unfold cnt. apply (count_occ_In Nat.eq_dec). exact Hu. }
  apply count_links_pos in Hc. destruct Hc as (x & Hx & Tx). rewrite (run_attrs3 _ _ _ _ _ _ _ _ _ R) in Hx.
  assert (Hel : is_element D2 u = true).
  { destruct (is_element D2 u) eqn:He; [easy|]. destruct (iv_plain _ _ (rn_inv2 _ _ _ _ _ _ _ _ _ R) u He) as (E0 & _). rewrite E0 in Hx. easy. }
  destruct (resolved_from _ _ _ _ _ _ (rn_resolved _ _ _ _ _ _ _ _ _ R) Hx) as [H|(d & Hd & Hdn & _)].
  { pose proof (rn_plain _ _ _ _ _ _ _ _ _ R u x H). congruence. }
  destruct (rn_else _ _ _ _ _ _ _ _ _ R d Hd) as [Hin|Hk]; rewrite <- Hdn in *.
  - left. rewrite preorder_eta. destruct (run_tree _ _ _ _ _ _ _ _ _ R) as (_ & Hr & Hk). rewrite preorder_eta in Hin. destruct Hin as [Hin|Hin].
    + left. rewrite <- Hin. unfold final_tree. apply drained_node.
    + right. rewrite Hk. destruct (run_facts P top D1 D2 D F F3 t0 ls R (fun _ _ _ => True)) as (Hl & _); [easy|].
      apply (laid_keep _ _ _ _ _ u Hl Hin). unfold is_text, is_element in *. destruct (node_type D2 u); easy.
  - right. unfold is_detached.
    assert (Hu2 : u < fresh D2).
    { destruct (Nat.lt_ge_cases u (fresh D2)) as [|Hge]; [easy|]. exfalso. destruct (blank_facts D2 F u (rn_inv2 _ _ _ _ _ _ _ _ _ R) Hge) as (E0 & _).
      rewrite E0 in Hx. easy. }
    rewrite (proj2 (gone_calls _ D2 D (rn_calls _ _ _ _ _ _ _ _ _ R)) u Hu2); [easy|].
    now rewrite (fr_key _ _ (rn_frame _ _ _ _ _ _ _ _ _ R)).
Qed.
