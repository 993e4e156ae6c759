(** Reading trace files. *)
From Coq Require Import List Bool String Ascii ZArith Lia.
From Verif Require Import Num Base Signal Robust Transducer TreeProof Driver Tables Parser Automaton ParserProof ParserSpec ParserTotal PrecProof LexProof.
Import ListNotations.
Local Open Scope string_scope.

Section Trace.
Context {T : Type} {N : Num T}.
Variable junk : T.
Variable conv : string -> option T.
Notation field := (field conv).
Notation row_text := (row_text conv).
Notation file_text := (file_text conv).

Definition space_char (c : ascii) : bool := one_of (String tab_char (String return_char (String (ascii_of_nat 11) (String (ascii_of_nat 12) " ")))) c.
Lemma spaces_span : forall b r, spaces b -> (match r with String c _ => is_space c = false | EmptyString => True end) -> span is_space (b ++ r) = (b, r).
Proof.
  intros b r B R. apply span_all; auto. unfold spaces, all in *. rewrite forallb_forall in *. intros c I. specialize (B c I).
  assert (X : implb (one_of (String tab_char (String return_char (String (ascii_of_nat 11) (String (ascii_of_nat 12) " ")))) c) (is_space c) = true) by every c.
  rewrite B in X. exact X.
Qed.

(** Digits are taken whatever came before. *)
Lemma floats_digits : forall a r dt ex dg fr, all digit a -> a <> "" -> floats dt ex dg fr (a ++ r) = (let '(x, y) := floats dt ex true false r in (a ++ x, y)).
Proof.
  intros a r dt ex. induction a as [|c a IH]; intros dg fr A NE; [congruence|]. unfold all in A. cbn [list_ascii_of_string forallb] in A.
  apply andb_prop in A. destruct A as [A1 A2]. cbn [append floats]. rewrite digit_digit, A1. destruct a as [|c' a].
  - cbn [append]. destruct (floats dt ex true false r); reflexivity.
  - rewrite IH; [|exact A2|discriminate]. destruct (floats dt ex true false r); reflexivity.
Qed.
Definition stops (r : string) : Prop := match r with String c _ => is_space c = true | EmptyString => True end.
Lemma floats_stop : forall dt ex dg fr r, stops r -> floats dt ex dg fr r = ("", r).
Proof.
  intros dt ex dg fr [|c r] ST; [reflexivity|]. cbn [stops] in ST. cbn [floats].
  assert (X : implb (is_space c) (negb (is_digit c) && negb (code c =? 46)%Z && negb (code c =? 101)%Z && negb (code c =? 69)%Z && negb (code c =? 43)%Z && negb (code c =? 45)%Z) = true) by every c.
  rewrite ST in X. cbn [implb] in X. rewrite !andb_true_iff, !negb_true_iff in X. destruct X as (((((-> & ->) & ->) & ->) & ->) & ->). reflexivity.
Qed.
Lemma floats_exponent : forall e dt r, exponent e -> stops r -> floats dt false true false (e ++ r) = (e, r).
Proof.
  intros e dt r [|e0 s a E SG NE A] ST.
  - now apply floats_stop.
  - assert (X : floats dt true true true ((s ++ a) ++ r) = (s ++ a, r)).
    { rewrite append_assoc. destruct SG as [->|[->| ->]]; cbn [append].
      - rewrite floats_digits by auto. rewrite floats_stop by auto. now rewrite append_nil.
      - cbn [floats]. change (is_digit "+") with false. change (code "+") with 43%Z. cbn [Z.eqb Pos.eqb andb orb].
        rewrite floats_digits by auto. rewrite floats_stop by auto. now rewrite append_nil.
      - cbn [floats]. change (is_digit "-") with false. change (code "-") with 45%Z. cbn [Z.eqb Pos.eqb andb orb].
        rewrite floats_digits by auto. rewrite floats_stop by auto. now rewrite append_nil. }
    destruct E as [->| ->]; cbn [append floats]; [change (is_digit "e") with false; change (code "e") with 101%Z|change (is_digit "E") with false; change (code "E") with 69%Z];
      cbn [Z.eqb Pos.eqb andb orb negb]; rewrite X; reflexivity.
Qed.
Lemma floats_mantissa : forall m e fr r, mantissa m -> exponent e -> stops r -> floats false false false fr (m ++ e ++ r) = (m ++ e, r).
Proof.
  intros m e fr r [a NE A|a f NE A F] E ST.
  - rewrite floats_digits by auto. now rewrite floats_exponent by auto.
  - rewrite !append_assoc. cbn [append].
    assert (X : forall dg fr, (dg = true \/ f <> "") -> floats false false dg fr (String "." (f ++ e ++ r)) = (String "." (f ++ e), r)).
    { intros dg fr' C. cbn [floats]. change (is_digit ".") with false. change (code ".") with 46%Z. cbn [Z.eqb Pos.eqb andb orb negb].
      destruct f as [|c f].
      - destruct C as [->|C]; [|congruence]. cbn [append]. rewrite floats_exponent by auto. reflexivity.
      - rewrite (floats_digits (String c f)) by (auto; discriminate). rewrite floats_exponent by auto. reflexivity. }
    destruct a as [|c a].
    + cbn [append] in *. rewrite X by auto. reflexivity.
    + rewrite (floats_digits (String c a)) by (auto; discriminate). rewrite X by auto. cbn [append]. reflexivity.
Qed.
Lemma extract_field : forall b w v r, spaces b -> field w v -> stops r -> extract conv (b ++ w ++ r) = (Some v, r).
Proof.
  intros b w v r B ((s & m & e & SG & M & E & ->) & V) ST. unfold extract.
  assert (FL : floats false false false true ((s ++ m ++ e) ++ r) = (s ++ m ++ e, r)).
  { rewrite !append_assoc. destruct SG as [->|[->| ->]]; cbn [append].
    - now apply floats_mantissa.
    - cbn [floats]. change (is_digit "+") with false. change (code "+") with 43%Z. cbn [Z.eqb Pos.eqb andb orb]. rewrite floats_mantissa by auto. reflexivity.
    - cbn [floats]. change (is_digit "-") with false. change (code "-") with 45%Z. cbn [Z.eqb Pos.eqb andb orb]. rewrite floats_mantissa by auto. reflexivity. }
  rewrite (spaces_span b _ B).
  - rewrite FL, V. reflexivity.
  - destruct SG as [->|[->| ->]]; cbn [append]; try reflexivity.
    destruct M as [a NE A|a f NE A F]; [destruct a as [|c a]; [congruence|]|destruct a as [|c a]; [reflexivity|]];
      cbn [append]; unfold all in A; cbn [list_ascii_of_string forallb] in A; apply andb_prop in A; destruct A as [A _];
      assert (X : implb (digit c) (negb (is_space c)) = true) by every c; rewrite A in X; now apply negb_true_iff in X.
Qed.
Lemma mantissa_starts : forall m, mantissa m -> exists c r, m = String c r /\ is_space c = false /\ Ascii.eqb c newline_char = false.
Proof.
  assert (D : forall c a, all digit (String c a) -> is_space c = false /\ Ascii.eqb c newline_char = false).
  { intros c a A. unfold all in A. cbn [list_ascii_of_string forallb] in A. apply andb_prop in A. destruct A as [A _].
    assert (X : implb (digit c) (negb (is_space c) && negb (Ascii.eqb c newline_char)) = true) by every c. rewrite A in X. cbn [implb] in X.
    now rewrite andb_true_iff, !negb_true_iff in X. }
  intros m [a NE A|a f NE A F].
  - destruct a as [|c a]; [congruence|]. exists c, a. split; auto. eapply D; eauto.
  - destruct a as [|c a].
    + exists "."%char, f. repeat split.
    + exists c, (a ++ "." ++ f). split; auto. eapply D; eauto.
Qed.
Lemma field_starts : forall w v, field w v -> exists c r, w = String c r /\ is_space c = false /\ Ascii.eqb c newline_char = false.
Proof.
  intros w v ((s & m & e & SG & M & E & ->) & V).
  destruct SG as [->|[->| ->]]; cbn [append].
  - destruct (mantissa_starts m M) as (c & r & -> & H). exists c, (r ++ e). split; auto.
  - exists "+"%char, (m ++ e). repeat split.
  - exists "-"%char, (m ++ e). repeat split.
Qed.

Lemma spaces_stop : forall b r, spaces b -> b <> "" -> stops (b ++ r).
Proof.
  intros [|c b] r B NE; [congruence|]. cbn [append stops]. unfold spaces, all in B. cbn [list_ascii_of_string forallb] in B.
  apply andb_prop in B. destruct B as [B _]. fold (space_char c) in B.
  assert (X : implb (space_char c) (is_space c) = true) by every c. rewrite B in X. exact X.
Qed.
Lemma spaces_app : forall a b, spaces a -> spaces b -> spaces (a ++ b).
Proof. intros a b A B. unfold spaces, all in *. induction a as [|c a IH]; cbn [append list_ascii_of_string forallb] in *; auto.
  apply andb_prop in A. destruct A as [A1 A2]. rewrite A1. cbn [andb]. auto.
Qed.

Lemma append_length : forall a b, String.length (a ++ b) = (String.length a + String.length b)%nat.
Proof. induction a; cbn; intros; auto. Qed.
Lemma row_fields : forall row line, row_text row line -> forall b fuel, spaces b -> (String.length line < fuel)%nat ->
  read_fields junk conv fuel false (b ++ line) = Ok row.
Proof.
  assert (NE : forall b w v r, spaces b -> field w v -> String.eqb (snd (span is_space (b ++ w ++ r))) "" = false).
  { intros b w v r B F. destruct (field_starts w v F) as (c & w' & -> & S & _). rewrite spaces_span; [reflexivity|auto|exact S]. }
  induction 1 as [b0 w v B0 F|b0 w v b1 l r B0 F B1 NB X IH]; intros b fuel B LE; (destruct fuel as [|k]; [lia|]); cbn [read_fields].
  - assert (BB := spaces_app b b0 B B0). rewrite <- append_assoc.
    assert (E := NE (b ++ b0) w v "" BB F). assert (G := extract_field (b ++ b0) w v "" BB F I). rewrite append_nil in E, G. rewrite E, G. reflexivity.
  - assert (BB := spaces_app b b0 B B0). rewrite <- append_assoc. rewrite (NE _ _ _ _ BB F).
    rewrite (extract_field _ _ _ _ BB F) by now apply spaces_stop.
    destruct b1 as [|c b1]; [congruence|]. cbn [append].
    change (String c (b1 ++ r)) with (String c b1 ++ r). rewrite IH; auto.
    rewrite !append_length in LE. destruct (field_starts w v F) as (c' & w' & -> & _). cbn [String.length] in LE. lia.
Qed.

Lemma getline_line : forall line rest, one_line line -> getline (line ++ String newline_char rest) = Some (line, rest).
Proof.
  intros line rest. unfold one_line, all. induction line as [|c l IH]; cbn [append list_ascii_of_string forallb getline]; intro A.
  - reflexivity.
  - apply andb_prop in A. destruct A as [A1 A2]. rewrite newline_code. apply negb_true_iff in A1. rewrite A1, IH by auto. reflexivity.
Qed.
Lemma getline_last : forall line, one_line line -> getline line = None.
Proof.
  intros line. unfold one_line, all. induction line as [|c l IH]; cbn [append list_ascii_of_string forallb getline]; intro A; auto.
  apply andb_prop in A. destruct A as [A1 A2]. rewrite newline_code. apply negb_true_iff in A1. now rewrite A1, IH by auto.
Qed.
Lemma one_line_app : forall a b, one_line a -> one_line b -> one_line (a ++ b).
Proof. intros a b A B. unfold one_line, all in *. induction a as [|c a IH]; cbn [append list_ascii_of_string forallb] in *; auto.
  apply andb_prop in A. destruct A as [A1 A2]. rewrite A1. cbn [andb]. auto.
Qed.
Lemma all_impl : forall (p q : ascii -> bool) s, (forall c, implb (p c) (q c) = true) -> all p s -> all q s.
Proof.
  intros p q s H. unfold all. rewrite !forallb_forall. intros A c I. specialize (H c). rewrite (A c I) in H. exact H.
Qed.
Lemma row_one_line : forall row line, row_text row line -> one_line line.
Proof.
  assert (SP : forall b, spaces b -> one_line b) by (intros b B; eapply all_impl; [|exact B]; intro c; every c).
  assert (DG : forall b, all digit b -> one_line b) by (intros b B; eapply all_impl; [|exact B]; intro c; every c).
  assert (SG : forall s, sign_text s -> one_line s) by (intros s [->|[->| ->]]; reflexivity).
  assert (FD : forall w v, field w v -> one_line w).
  { intros w v ((s & m & e & S & M & E & ->) & _). repeat apply one_line_app; auto.
    - destruct M; repeat apply one_line_app; auto. reflexivity.
    - destruct E as [|e s' a X]; [reflexivity|]. repeat apply one_line_app; auto. destruct X as [->| ->]; reflexivity. }
  induction 1; repeat apply one_line_app; eauto.
Qed.

Theorem file_read : forall rows s, file_text rows s -> forall tail fuel data, one_line tail -> (String.length s < fuel)%nat ->
  read_lines junk conv fuel (s ++ tail) data = Ok (data ++ rows)%list.
Proof.
  induction 1 as [|row line rows rest R F IH]; intros tail fuel data TL LE; (destruct fuel as [|k]; [lia|]); cbn [read_lines].
  - cbn [append]. rewrite getline_last by auto. now rewrite app_nil_r.
  - rewrite append_assoc. cbn [append]. rewrite getline_line by (eapply row_one_line; eauto).
    rewrite append_length in LE. cbn [String.length] in LE.
    change line with ("" ++ line). rewrite (row_fields row line R "") by first [reflexivity|lia]. cbn [bind].
    rewrite IH by (auto; lia). now rewrite <- app_assoc.
Qed.

(** After a failed extraction that does not reach the end of the line, the loop never ends. *)
Lemma failed_forever : forall fuel s, read_fields junk conv fuel true s = OutOfFuel.
Proof. induction fuel as [|k IH]; intro s; cbn [read_fields]; auto. now rewrite IH. Qed.

(** A line whose first field starts with a character that no number starts with. *)
Theorem word_forever : forall b c r rest data, spaces b -> one_line (String c r) -> conv "" = None ->
  is_space c = false -> digit c || one_of "+-." c = false -> forall fuel,
  read_lines junk conv fuel ((b ++ String c r) ++ String newline_char rest) data = OutOfFuel.
Proof.
  intros b c r rest data B O CE NS ND [|k]; [reflexivity|]. cbn [read_lines]. rewrite getline_line.
  - replace (read_fields junk conv k false (b ++ String c r)) with (@OutOfFuel (list T)); [reflexivity|]. symmetry.
    destruct k as [|k]; [reflexivity|]. cbn [read_fields]. unfold extract. rewrite (spaces_span b (String c r) B NS). cbn [snd String.eqb].
    assert (FL : floats false false false true (String c r) = ("", String c r)).
    { cbn [floats]. assert (X : implb (negb (digit c || one_of "+-." c)) (negb (is_digit c) && negb (code c =? 46)%Z && negb (code c =? 43)%Z && negb (code c =? 45)%Z) = true) by every c.
      rewrite ND in X. cbn [implb negb] in X. rewrite !andb_true_iff, !negb_true_iff in X. destruct X as (((-> & ->) & ->) & ->).
      cbn [andb orb]. rewrite andb_false_r. reflexivity. }
    rewrite FL, CE. now rewrite failed_forever.
  - apply one_line_app; auto. eapply all_impl; [|exact B]. intro c'. every c'.
Qed.
End Trace.
