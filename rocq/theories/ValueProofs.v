(* The parser reads values as the table says. *)
From Coq Require Import String List Bool PeanoNat NArith.
From Verif Require Import Base Ids Data AttrFacts Text Parser ValueSpec.
Import ListNotations.
Open Scope nat_scope.
Open Scope list_scope.

Definition kept (P : values) (o : outcome) : outcome :=
  match o with
  | OValue v => if dropped P v then ONothing else OValue v
  | o => o
  end.

Lemma bare_strip s : bare s = strip s.
Proof.
  assert (H : forall s, drop_white s = strip_left s) by (clear; induction s as [|c s IH]; [easy|]; cbn; now rewrite IH).
  unfold bare, strip. now rewrite !H.
Qed.
Lemma until_valid l : until_error l = valid_segments l.
Proof. induction l as [|[x|] l IH]; [easy| |easy]. cbn. now rewrite IH. Qed.

Definition row (a : aid) : list (string * avalue) * vtype :=
  match find (fun r => existsb (aid_eqb a) (fst (fst r))) table with
  | Some r => (snd (fst r), snd r)
  | None => ([], TString)
  end.

Lemma read_value_eq P e a s : read_value P e a s = kept P (parse_value P e a s).
Proof.
  unfold read_value, parse_value. rewrite bare_strip.
  replace (match a with A_Unicode => s | _ => strip s end) with (if aid_eqb a A_Unicode then s else strip s)
    by now destruct a.
  generalize (if aid_eqb a A_Unicode then s else strip s). clear s. intros s.
  assert (Hg : grammar e a = if text_positions e && existsb (aid_eqb a) [A_X; A_Y; A_Dx; A_Dy] then ([], TLengthList)
    else if animates e && aid_eqb a A_Fill then ([], TString) else row a) by reflexivity.
  rewrite Hg. clear Hg.
  destruct a;
    repeat match goal with |- context [existsb ?f ?l] => let b := eval vm_compute in (existsb f l) in change (existsb f l) with b end;
    repeat match goal with |- context [aid_eqb ?x ?y] => let b := eval vm_compute in (aid_eqb x y) in change (aid_eqb x y) with b end;
    match goal with |- context [row ?x] => let b := eval cbv -[lit] in (row x) in change (row x) with b end;
    rewrite ?andb_false_r, ?andb_true_r; cbn [find fst snd attribute_outcome].
  all: try reflexivity.
  all: unfold eqs, read_type, required, paint_outcome, parse_number, whole_number, checked; rewrite ?until_valid.
  all: repeat first [ reflexivity | progress cbn [kept dropped orb snd] |
    match goal with
    | |- context [str_eqb ?x ?w] => destruct (str_eqb x w) eqn:?
    | |- context [text_positions ?e] => destruct e; cbn [text_positions andb find]
    | |- context [animates ?e] => destruct e; cbn [animates andb find]
    | |- context [match ?x with _ => _ end] => destruct x
    end ].
  all: match goal with H : str_eqb _ _ = true |- _ => apply str_eqb_eq in H; now rewrite H end.
Qed.
