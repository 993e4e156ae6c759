(** Printed numbers: C57. *)
From Coq Require Import List Bool String Ascii ZArith QArith Qabs Qcanon.
From Verif Require Import Num Base Signal Robust Transducer TreeProof Driver Tables Parser Automaton ParserProof ParserSpec ParserTotal PrecProof LexProof PrintProof SignalClaims
  Decimal DecimalSpec DecimalProof DecimalShape ParserClaims DecimalClaims.
Import ListNotations.
Local Open Scope string_scope.
Local Open Scope Q_scope.

(** C57: a number is printed as a text that denotes the number rounded to six significant
    digits ([six_digits]; a tie goes to the even digit). *)
Theorem C57_reads_back : forall v v', six_digits v v' -> decimal (show6 v) = Some v'.
Proof. exact six_reads. Qed.
Print Assumptions C57_reads_back.
Theorem C57_rounding : forall v, exists v', six_digits v v' /\ six_digits v' v' /\ forall w, six_digits v w -> w = v'.
Proof.
  intro v. destruct (read_back v) as (v' & _ & S). exists v'. split; [exact S|]. split; [exact (six_fixed v v' S)|]. intros w W. exact (six_unique v w v' W S).
Qed.
Print Assumptions C57_rounding.

Example C57_case : six_digits (Q2Qc (1999999 # 2)) (q 1000000) /\ six_digits (Q2Qc (1999997 # 2)) (q 999998) /\
  six_digits (Q2Qc (1 # 30000)) (Q2Qc (333333 # 10000000000)) /\
  show6 (Q2Qc (1999999 # 2)) = "1e+06" /\ show6 (Q2Qc (1999997 # 2)) = "999998" /\ show6 (Q2Qc (1 # 30000)) = "3.33333e-05" /\
  show6 (- Q2Qc (1 # 8))%Qc = "-0.125".
Proof. destruct six_cases as (A & B & C). destruct show_cases. auto 8. Qed.

(** The scanner takes the text as one number exactly if the rounded number is 0 or has a size
    from 0.0001 up to a million; otherwise there is an exponent, see C38_refuted_text. *)
Theorem C57_scanned : forall v v', six_digits v v' ->
  (numeral (show6 v) <-> v' = 0%Qc \/ ((10 # 1) ^ (-4) <= Qabs (this v') /\ Qabs (this v') < (10 # 1) ^ 6)).
Proof. exact scanned. Qed.
Print Assumptions C57_scanned.

(** The text has no leading zeros but the one before the point, no trailing zeros after the point, no point without digits
    after it, and an exponent has a sign and two digits or more. *)
Theorem C57_tidy : forall v, tidy (show6 v).
Proof. exact show_tidy. Qed.
Print Assumptions C57_tidy.
Example C57_tidy_case : show6 (q 1500) = "1500" /\ show6 (Q2Qc (3 # 2)) = "1.5" /\ show6 (q 25000000) = "2.5e+07" /\ tidy "2.5e+07" /\ ~ tidy "2.50".
Proof.
  split; [vm_compute; reflexivity|]. split; [vm_compute; reflexivity|]. split; [vm_compute; reflexivity|]. split.
  - assert (E : show6 (q 25000000) = "2.5e+07") by (vm_compute; reflexivity). rewrite <- E. apply show_tidy.
  - exact untidy_case.
Qed.

(** A formula is printed like the formula with rounded numbers, and read back as that one
    if it needs no parentheses: all that is lost are the digits. *)
Theorem C57_formula : forall d f f' p r x, six f f' -> printable decimal (column d) show6 (fst d) actual f' p r -> fresh (fst d) (snd d) x ->
  exists t, skel t = f' /\
    parse decimal d (x ++ " := " ++ print show6 f) =
      Ok (true, (d_with_formulas (fst d) (assign x t (d_formulas (fst d))), snd d)).
Proof. exact print_six_parse. Qed.
Print Assumptions C57_formula.

Example C57_formula_case : six thirds thirds6 /\ (exists p r, printable decimal (column d_xy) show6 (fst d_xy) actual thirds6 p r) /\
  print show6 thirds = "alw_[0,0.333333] (not x[t] > 1.23457)  and y[t] > -6.66667" /\ fresh (fst d_xy) (snd d_xy) "psi".
Proof. split; [exact thirds_six|]. split; [exact thirds_printable|]. split; [exact thirds_text|exact (proj1 C37_example)]. Qed.
