(** Properties of the parser, the printer and the trace reader: C36, C37, C38, C39, C40, C45, C46, C47. *)
From Coq Require Import List Bool String Ascii ZArith QArith Qcanon Lia Permutation.
From Verif Require Import Num Base Signal Robust Transducer SignalClaims TreeProof Driver Tables Parser Decimal Automaton ParserProof ParserSpec ParserTotal
  PrecProof LexProof PrintProof DeclProof DeclCall TraceProof ParserClaims LangSpec LangSound LangRun LangClaims.
Import ListNotations.
Local Open Scope string_scope.
Local Open Scope Z_scope.

(** ** C36: signals are numbered in the order of their declaration *)

(** Any sequence of inputs, accepted or not: all names stay numbered 1, 2, 3, ...; names declared
    before keep their number.  (As long as there can be no more than 32767 signals.) *)
Theorem C36_numbered : forall (T : Type) (N : Num T) (value : string -> option T) texts d tests, in_order (d_signals d) ->
  Z.of_nat (List.length (d_signals d) + list_sum (map String.length texts)) <= 32767 ->
  exists bs d' tests', parse_all value (d, tests) texts = Ok (bs, (d', tests')) /\ in_order (d_signals d') /\
    exists l, d_signals d' = (d_signals d ++ l)%list.
Proof. exact all_numbered. Qed.
Print Assumptions C36_numbered.

(** A declaration is accepted, with repetitions, blanks and comments, and adds the new names in order. *)
Theorem C36_declared : forall (T : Type) (N : Num T) (value : string -> option T) (d : parsed (T := T)) g l r, gap g -> names_text l r ->
  (match r with String c _ => wordly c = false | EmptyString => True end) ->
  (forall x, In x l -> declarable (fst d) (snd d) x) ->
  Z.of_nat (List.length (d_signals (fst d)) + List.length l) <= 32767 ->
  parse value d (g ++ "signal" ++ r) = Ok (true, with_signals d (fold_left declare l (d_signals (fst d)))).
Proof. exact (@declare_signals). Qed.
Print Assumptions C36_declared.

(** The calls that stand for declarations in the histories of the other claims (C28, C32, C41, ...)
    leave the driver as the text does. *)
Theorem C36_called : forall (T : Type) (N : Num T) (value : string -> option T) (S : statics T) (d : driver T) tests ds ms g l r, gap g -> names_text l r ->
  (match r with String c _ => wordly c = false | EmptyString => True end) ->
  (forall x, In x l -> declarable d tests x) ->
  Z.of_nat (List.length (d_signals d) + List.length l) <= 32767 ->
  exists d', parse value (d, tests) (g ++ "signal" ++ r) = Ok (true, (d', tests)) /\
    run (mkW S (d :: ds) ms) (map (fun x => CDrv 0 (DSignal x)) l) = Ok (mkW S (d' :: ds) ms, repeat ODone (List.length l)).
Proof. exact @declared_calls. Qed.
Print Assumptions C36_called.

(** The i-th declared signal has column i, counted from 1 (column 0 is the time). *)
Theorem C36_column : forall (T : Type) (d : parsed (T := T)) x i, in_order (d_signals (fst d)) ->
  nth_error (map fst (d_signals (fst d))) i = Some x -> column d x = Some (S i).
Proof. exact column_position. Qed.
Print Assumptions C36_column.

(** get_signals_names lists them in this order, in whatever order the map is traversed. *)
Theorem C36_names : forall m m', in_order m -> m <> [] -> Permutation m m' ->
  signal_map_to_string m' = Ok (String.concat " " (map fst m)).
Proof. exact names_listed. Qed.
Print Assumptions C36_names.

(** Without signals, get_signals_names reads a name that is not there. *)
Theorem C36_refuted_names : signal_map_to_string [] = UB.
Proof. reflexivity. Qed.
Print Assumptions C36_refuted_names.

(** The 32768th signal gets a negative number. *)
Theorem C36_refuted_32768 : exists (d d' : parsed (T := Qc)), in_order (d_signals (fst d)) /\
  parse_q d "signal b" = Ok (true, d') /\ find "b" (d_signals (fst d')) = Some (-32768).
Proof. exact wrapped. Qed.
Print Assumptions C36_refuted_32768.

Example C36_case :
  option_map (fun d => (d_signals (fst d), signal_map_to_string (d_signals (fst d))))
    (match parse_all decimal start ["signal x, y,x"; "signal y, z bad"; "signal # comment
 u, y , v"] with Ok (bs, d) => Some d | _ => None end)
  = Some ([("x", 1); ("y", 2); ("z", 3); ("u", 4); ("v", 5)], Ok "x y z u v").
Proof. vm_compute. reflexivity. Qed.
Example C36_declared_case : names_text ["x"; "y"; "x"] " x, y,x" /\
  fold_left declare ["x"; "y"; "x"] [] = [("x", 1); ("y", 2)].
Proof.
  split; [|reflexivity].
  assert (ID : forall c, letter c = true -> identifier (String c "")) by (intros c L; exists c, ""; repeat split; auto).
  change " x, y,x" with (" " ++ "x" ++ "" ++ "," ++ (" " ++ "y" ++ "" ++ "," ++ ("" ++ "x" ++ ""))).
  repeat constructor; try (apply ID; reflexivity).
Qed.
Example C36_called_case : (forall x, In x ["x"; "y"; "x"] -> declarable (new_driver (T := Qc)) [] x) /\
  run (mkW (mkStat SPACE LINEAR (q 10)) [new_driver] []) (map (fun x => CDrv 0 (DSignal x)) ["x"; "y"; "x"]) =
    Ok (mkW (mkStat SPACE LINEAR (q 10)) [mkDrv [] [] [("x", 1); ("y", 2)] [] SPACE LINEAR] [], [ODone; ODone; ODone]).
Proof.
  split; [|vm_compute; reflexivity]. intros x H. cbn [In] in H. destruct H as [<-|[<-|[<-|[]]]]; (split; [|split; [reflexivity|split; [reflexivity|auto]]]);
    intros K; cbn in K; intuition discriminate.
Qed.

(** ** C37: precedence *)

(** Every text of the grammar [formula], with the precedences [actual], is read as that formula.  Nothing
    else changes. *)
Theorem C37_precedence : forall (T : Type) (N : Num T) (value : string -> option T) (d : parsed (T := T)) x ts f p q g g' s,
  fresh (fst d) (snd d) x -> formula value (column d) (meaning d) actual ts f p q -> gap g -> gap g' -> text (fst d) ts s ->
  exists t, skel t = f /\
    parse value d (g ++ x ++ g' ++ ":=" ++ s) =
      Ok (true, (d_with_formulas (fst d) (assign x t (d_formulas (fst d))), snd d)).
Proof. exact (@define_formula). Qed.
Print Assumptions C37_precedence.

Example C37_case : fresh (fst d_xy) (snd d_xy) "psi" /\ exists ts p r, text (fst d_xy) ts "ev_[0, a] not phi and y[t]*(2 -x[t])<a or phi" /\
  formula decimal (column d_xy) (meaning d_xy) actual ts
    (FAnd (FEv (mkI (mkB (q 0) None) (mkB n0 (Some "a"))) (FNot (FAtom (FSig "x" 1) GREATERTHAN (FConst None (q 0)))))
          (FOr (FAtom (FMult (FSig "y" 2) (FMinus (FConst None (q 2)) (FSig "x" 1))) LESSTHAN (FConst (Some "a") n0))
               (FAtom (FSig "x" 1) GREATERTHAN (FConst None (q 0))))) p r.
Proof. exact C37_example. Qed.

(** With the usual precedences the parser is wrong: it groups a and b or c as a and (b or c). *)
Theorem C37_refuted : exists ts s f p q f', text (fst d_xy) ts s /\
  formula decimal (column d_xy) (meaning d_xy) usual ts f p q /\ f' <> f /\
  exists d', parse_q d_xy ("psi :=" ++ s) = Ok (true, d') /\ find "psi" (formulas d') = Some f'.
Proof. exact C37_wrong. Qed.
Print Assumptions C37_refuted.
(** a + b * c is (a + b) * c. *)
Theorem C37_refuted_product : exists d', parse_q d_xy "psi := x[t] + y[t] * a > 0" = Ok (true, d') /\
  find "psi" (formulas d') = Some (FAtom (FMult (FPlus (FSig "x" 1) (FSig "y" 2)) (FConst (Some "a") n0)) GREATERTHAN (FConst None (q 0))).
Proof. eexists. split; vm_compute; reflexivity. Qed.
Print Assumptions C37_refuted_product.

(** ** C38: printing *)

(** A formula that needs no parentheses is read back as it was printed. *)
Theorem C38_partial : forall (T : Type) (N : Num T) (value : string -> option T) (show : T -> string) (d : parsed (T := T)) f p q x,
  printable value (column d) show (fst d) actual f p q -> fresh (fst d) (snd d) x ->
  exists t, skel t = f /\
    parse value d (x ++ " := " ++ print show f) =
      Ok (true, (d_with_formulas (fst d) (assign x t (d_formulas (fst d))), snd d)).
Proof. exact (@print_parse). Qed.
Print Assumptions C38_partial.

Example C38_case : exists p r, printable decimal (column d_xy) show6 (fst d_xy) actual
  (FAnd (FNot (FEv (mkI (mkB (q 0) None) (mkB n0 (Some "a"))) (FOr (FAtom (FMult (FSig "x" 1) (FConst None (q (-3)))) GREATERTHAN (FConst None (q 0)))
                                                                   (FAtom (FAbs (FSig "y" 2)) LESSTHAN (FConst (Some "a") n0)))))
        (FAtom (FSig "x" 1) GREATERTHAN (FConst None (Q2Qc (5 # 2))))) p r.
Proof. exact C38_example. Qed.

(** Formulas that the parser itself built, and that come back as another formula: parentheses are lost; digits are lost. *)
Theorem C38_refuted_parentheses : round_trip "not (phi and y[t] > 0)" /\ round_trip "(phi and y[t] > 0) or phi" /\
  round_trip "x[t] * (y[t] * a) > 0" /\ round_trip "x[t] > 1.2345678".
Proof. exact lost. Qed.
Print Assumptions C38_refuted_parentheses.
(** And formulas whose text is not accepted: a sign is taken as part of the number after it; small numbers are printed with an exponent,
    which the scanner does not know. *)
Theorem C38_refuted_text : no_trip "x[t] - 1 > 0" /\ no_trip "x[t] > 0.00001" /\ no_trip "x[t] * (abs(y[t])) > 0".
Proof. exact rejected. Qed.
Print Assumptions C38_refuted_text.

(** ** C39: definitions are kept *)

(** Any sequence of inputs, accepted or not: every formula keeps its tree; data and settings are not touched. *)
Theorem C39_kept : forall (T : Type) (N : Num T) (value : string -> option T) texts d tests bs d' tests',
  parse_all value (d, tests) texts = Ok (bs, (d', tests')) -> extends d d'.
Proof. exact (@parse_all_extends). Qed.
Print Assumptions C39_kept.

(** An input that starts by redefining a formula is rejected, and changes nothing. *)
Theorem C39_redefinition : forall (T : Type) (N : Num T) (value : string -> option T) (d : parsed (T := T)) g x r, gap g -> identifier x ->
  (match r with String c _ => wordly c = false | EmptyString => True end) ->
  ~ In x keywords -> find x (d_formulas (fst d)) <> None -> parse value d (g ++ x ++ r) = Ok (false, d).
Proof. exact (@redefinition). Qed.
Print Assumptions C39_redefinition.

(** Within one input a name just defined can be redefined at once: the scanner has read the second
    occurrence before the first definition is stored. *)
Theorem C39_refuted : exists d1 d2 f1 f2, parse_q d_xy "psi := phi" = Ok (true, d1) /\ parse_q d_xy "psi := phi psi := not phi" = Ok (true, d2) /\
  formulas d1 = (formulas d_xy ++ [("psi", f1)])%list /\ formulas d2 = (formulas d_xy ++ [("psi", f2)])%list /\ f1 <> f2.
Proof. exact redefined. Qed.
Print Assumptions C39_refuted.

Example C39_case : exists d, parse_all decimal d_xy ["phi := x[t] < 0"; "psi := ev [0 1] phi )"; "signal z chi := z[t] > a => psi"; "param a = 5"] =
    Ok ([false; false; true; true], d) /\
  find "phi" (formulas d) = Some (FAtom (FSig "x" 1) GREATERTHAN (FConst None (q 0))) /\ List.length (formulas d) = 3%nat.
Proof. eexists. split; [vm_compute; reflexivity|]. split; vm_compute; reflexivity. Qed.

(** ** C40: trace files *)

(** A file of numbers, one newline after each line, no blanks at the end of a line: one row per line, one number per
    field.  Whatever the uninitialised variable holds. *)
Theorem C40_partial : forall (T : Type) (N : Num T) (junk : T) (value : string -> option T) rows s data fuel,
  file_text value rows s -> (String.length s < fuel)%nat ->
  read_trace junk value fuel (Some s) data = Ok (true, data ++ rows)%list.
Proof. exact trace_read. Qed.
Print Assumptions C40_partial.

(** What comes after the last newline is dropped. *)
Theorem C40_refuted_last_line : forall (T : Type) (N : Num T) (junk : T) (value : string -> option T) rows s line data fuel,
  file_text value rows s -> one_line line -> (String.length s < fuel)%nat ->
  read_trace junk value fuel (Some (s ++ line)) data = Ok (true, data ++ rows)%list.
Proof. exact trace_dropped. Qed.
Print Assumptions C40_refuted_last_line.

(** On a line that starts with a word, for instance a header, reading does not terminate. *)
Theorem C40_refuted_termination : forall (T : Type) (N : Num T) (junk : T) (value : string -> option T) b c r rest data,
  spaces b -> one_line (String c r) -> value "" = None -> letter c = true -> forall fuel,
  read_trace junk value fuel (Some ((b ++ String c r) ++ String newline_char rest)) data = OutOfFuel.
Proof. exact trace_forever. Qed.
Print Assumptions C40_refuted_termination.

(** A blank at the end of a line, and a line without numbers, give a value that is not in the file. *)
Theorem C40_refuted_uninitialised : forall junk : Qc, exists fuel,
  read_trace junk decimal fuel (Some ("0 1 " ++ String newline_char (String newline_char ""))) [] = Ok (true, [[q 0; q 1; junk]; [junk]]).
Proof. intro junk. exists 20%nat. vm_compute. reflexivity. Qed.
Print Assumptions C40_refuted_uninitialised.

Example C40_case : file_text decimal [[q 0; q 3]; [q 1; Q2Qc (-5 # 2)]] ("0 3" ++ String newline_char ("  1.0e0 -2.5" ++ String newline_char "")).
Proof. exact C40_text. Qed.

(** ** C45: parsing always ends *)
Theorem C45_total : forall (T : Type) (N : Num T) (value : string -> option T) d tests s, in_order (d_signals d) ->
  Z.of_nat (List.length (d_signals d) + String.length s) <= 32767 ->
  exists b d' tests', parse value (d, tests) s = Ok (b, (d', tests')).
Proof. exact parse_returns. Qed.
Print Assumptions C45_total.
(** The number of steps is at most 60 per character; without any condition. *)
Theorem C45_terminates : forall (T : Type) (N : Num T) (value : string -> option T) d s fuel, (60 * String.length s + 60 <= fuel)%nat ->
  parse_string value fuel d s <> OutOfFuel.
Proof. exact parse_terminates. Qed.
Print Assumptions C45_terminates.
Example C45_case : in_order (d_signals (fst d_xy)) /\ parse_q d_xy ")(-> signal 3 ""x" = Ok (false, d_xy).
Proof. split; [|vm_compute; reflexivity]. split; [vm_compute; reflexivity|]. vm_compute. repeat constructor; cbn; intuition discriminate. Qed.

(** ** C46: only texts of the language are accepted *)

(** A text of ASCII characters that is accepted is a text of the language of LangSpec.v, and the driver
    afterwards is the one its statements lead to. *)
Theorem C46_partial : forall (T : Type) (N : Num T) (value : string -> option T) d s d', regular s ->
  parse value d s = Ok (true, d') -> in_language value d s d'.
Proof. exact parse_in_language. Qed.
Print Assumptions C46_partial.
(** With any characters, this holds up to the first one that is not ASCII and is not in a comment or in quotes. *)
Theorem C46_any_partial : forall (T : Type) (N : Num T) (value : string -> option T) d s d',
  parse value d s = Ok (true, d') -> accepted value d s d'.
Proof. exact parse_accepted. Qed.
Print Assumptions C46_any_partial.
(** What follows such a character is not read, and the text is accepted. *)
Theorem C46_refuted : exists s d, parse decimal d_xy s = Ok (true, d) /\ forall d', ~ in_language decimal d_xy s d'.
Proof. exists odd_text. exact beyond_end. Qed.
Print Assumptions C46_refuted.
Example C46_case : regular "param a = 2, b = 3 psi := ev_[0, b] phi => x[t]*a < y[t]" /\
  exists d, parse decimal d_xy "param a = 2, b = 3 psi := ev_[0, b] phi => x[t]*a < y[t]" = Ok (true, d) /\ d <> d_xy.
Proof.
  split; [vm_compute; reflexivity|]. eexists. split; [vm_compute; reflexivity|].
  intro H. apply (f_equal (fun d => List.length (d_formulas (fst d)))) in H. vm_compute in H. discriminate H.
Qed.

(** ** C47: every text of the language is accepted, and does what its statements say *)

(** [like]: the signals, the parameters, the tests, the data and the settings are equal, and the formulas are
    equal up to what evaluations leave behind in them. *)
Theorem C47_complete : forall (T : Type) (N : Num T) (value : string -> option T) d s d', in_language value d s d' ->
  exists d1, parse value d s = Ok (true, d1) /\ like d' d1.
Proof. exact language_accepted. Qed.
Print Assumptions C47_complete.
(** The same for texts with characters that are not ASCII: it is exactly the texts of C46_any_partial that are accepted. *)
Theorem C47_any : forall (T : Type) (N : Num T) (value : string -> option T) d s d', accepted value d s d' ->
  exists d1, parse value d s = Ok (true, d1) /\ like d' d1.
Proof. exact accepted_parsed. Qed.
Print Assumptions C47_any.
(** No text of the language has two meanings. *)
Theorem C47_unambiguous : forall (T : Type) (N : Num T) (value : string -> option T) d s d1 d2,
  in_language value d s d1 -> in_language value d s d2 -> like d1 d2.
Proof. exact language_unambiguous. Qed.
Print Assumptions C47_unambiguous.
Example C47_case : exists d', in_language decimal d_xy ("signal x, z # and a comment
 param a = 2 psi := ev_[0, a] (phi and not x[t] < z[t]*a) test t1: ""file"", 5, true { u (b = 2) { psi, ""q"", ""r"", true } }") d' /\
  map fst (d_formulas (fst d')) <> map fst (d_formulas (fst d_xy)) /\ snd d' = ["u"].
Proof.
  eexists. split; [apply parse_in_language; vm_compute; reflexivity|]. split; [vm_compute; discriminate|reflexivity].
Qed.
