(** Properties of the tests of a driver: C48. *)
From Coq Require Import List Bool String Ascii ZArith QArith Qcanon Lia.
From Verif Require Import Num Base Signal Robust Transducer TreeProof Driver Tables Parser Decimal ParserTotal Tests TestsProof TestsClaims.
Import ListNotations.
Local Open Scope string_scope.

(** ** C48: run_tests reports on the tests of the next trace test *)

(** If the code computes the number [x] for each test [t] of the trace test at the front of the queue, then the report and the
    log are extended by one entry for each of them, in order; the number of positive tests is counted; the result and the error flag are true
    if and only if one of the tests that signal errors is positive; the trace test is removed from the queue.
    Missing: that the numbers are those of [test_value]; that is false, see below. *)
Theorem C48_partial : forall (T : Type) (N : Num T) (show : T -> string) S data b r q (robs : list T), b_queue b = r :: q ->
  Forall2 (fun t x => exists t', run_formula S data (t_formula t) = Ok (x, t')) (tt_tests r) robs ->
  let l := combine (tt_tests r) robs in
  run_tests show S data b =
  Ok (existsb fails l,
      mkBench (b_tests b) q (b_report b ++ "stl_test " ++ tt_id r ++ newline ++ lines (report_lines show) l ++ newline)
              (b_log b ++ lines (log_line show) l) (b_pos b + counts l)%Z (b_total b) (existsb fails l)).
Proof. exact @run_tests_reports. Qed.
Print Assumptions C48_partial.
Example C48_case : exists d r, used_driver = Ok d /\ b_queue (with_phi d) = [r] /\
  Forall2 (fun t x => exists t', run_formula stat0 (d_data d) (t_formula t) = Ok (x, t')) (tt_tests r) [qz 0].
Proof.
  destruct used_driver as [d| | | |] eqn:E; [|exfalso; vm_compute in E; discriminate E ..].
  exists d. vm_compute in E. injection E as <-. eexists. split; [reflexivity|]. split; [vm_compute; reflexivity|].
  constructor; [|constructor]. eexists. vm_compute. reflexivity.
Qed.
(** A test whose formula was parsed and never evaluated cannot be run: the read position of its leaves was never set. *)
Theorem C48_refuted_undefined : forall (T : Type) (N : Num T) (show : T -> string) S data b id env time visu name local f pos neg err,
  b_queue b = [] -> forward f n0 ->
  run_tests show S data (add_new (add_trace_test b id env time visu) name local (build f) pos neg err) = UB.
Proof. exact @new_test_undefined. Qed.
Print Assumptions C48_refuted_undefined.
Example C48_undefined_case : forward (FAlw (mkI (mkB (qz 0) None) (mkB (qz 2) None)) (FAtom (FSig "x" 1) GREATERTHAN (FConst None (qz 0)))) n0.
Proof. vm_compute. split; [reflexivity|discriminate]. Qed.
(** The same for [dump]. *)
Theorem C48_refuted_dump : forall (T : Type) (N : Num T) S data k f m, forward f n0 -> dump S data ((k, build f) :: m) = UB.
Proof. exact @new_formula_undefined. Qed.
Print Assumptions C48_refuted_dump.
(** A test whose formula is a formula that was evaluated before is run on the rows that evaluation has not read: here the test
    is positive and signals an error, but this is not reported. *)
Theorem C48_refuted_value : forall show, exists d b r q t e b', used_driver = Ok d /\ b = with_phi d /\ b_queue b = r :: q /\ tt_tests r = [t] /\
  test_value stat0 d t (qz 1) /\ t_err t = true /\ run_tests show stat0 (d_data d) b = Ok (e, b') /\ e = false /\ b_pos b' = 0%Z.
Proof. exact test_wrong. Qed.
Print Assumptions C48_refuted_value.
(** With an empty queue the behaviour is undefined. *)
Theorem C48_refuted_empty : forall (T : Type) (N : Num T) (show : T -> string) S data, run_tests show S data new_bench = UB.
Proof. reflexivity. Qed.
Print Assumptions C48_refuted_empty.
