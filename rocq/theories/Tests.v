(** Model of the tests of an STLDriver: stl_test and trace_test (include/stl_driver.h:14-54), and
    add_trace_test, add_stl_test, run_tests and clear (src/stl_driver.cpp:196-239, 302-369, 394-459). *)
From Coq Require Import List Bool String Ascii ZArith.
From Verif Require Import Num Base Signal Robust Transducer Driver.
Import ListNotations.
Local Open Scope string_scope.

(** stl_driver.h:16-45.  The formula is an object of its own: each stl_test is stored with a clone. *)
Record stl_test (T : Type) := mkTest {
  t_id : string; t_params : list (string * T); t_formula : tree T; t_pos : string; t_neg : string; t_err : bool }.
Arguments mkTest {T} t_id t_params t_formula t_pos t_neg t_err.
Arguments t_id {T} s.
Arguments t_params {T} s.
Arguments t_formula {T} s.
Arguments t_pos {T} s.
Arguments t_neg {T} s.
Arguments t_err {T} s.

(** stl_driver.h:47-54. *)
Record trace_test (T : Type) := mkTrace {
  tt_id : string; tt_env : string; tt_time : T; tt_visu : bool; tt_tests : list (stl_test T) }.
Arguments mkTrace {T} tt_id tt_env tt_time tt_visu tt_tests.
Arguments tt_id {T} t.
Arguments tt_env {T} t.
Arguments tt_time {T} t.
Arguments tt_visu {T} t.
Arguments tt_tests {T} t.

(** stl_driver.h:98-105, the members of STLDriver that belong to tests.  The counters are
    of type int; that they could overflow is not modelled. *)
Record bench (T : Type) := mkBench {
  b_tests : list (string * stl_test T); b_queue : list (trace_test T);
  b_report : string; b_log : string; b_pos : Z; b_total : Z; b_error : bool }.
Arguments mkBench {T} b_tests b_queue b_report b_log b_pos b_total b_error.
Arguments b_tests {T} b.
Arguments b_queue {T} b.
Arguments b_report {T} b.
Arguments b_log {T} b.
Arguments b_pos {T} b.
Arguments b_total {T} b.
Arguments b_error {T} b.

Definition newline : string := String (ascii_of_nat 10) "".
Definition indent : string := "    ".

Section Tests.
Context {T : Type} {N : Num T}.
Variable show : T -> string.      (* d_to_s, tools.h:34-40: how a stream prints a double *)

(** stl_driver.cpp:18-29. *)
Definition new_bench : bench T := mkBench [] [] "" "" 0 0 false.

(** stl_driver.cpp:361-369. *)
Definition add_trace_test (b : bench T) (id env : string) (time : T) (visu : bool) : bench T :=
  mkBench (b_tests b) (b_queue b ++ [mkTrace id env time visu []]) (b_report b) (b_log b) (b_pos b) (b_total b) (b_error b).

(** trace_test_queue.back().tests.push_back(t). *)
Fixpoint push (t : stl_test T) (q : list (trace_test T)) : list (trace_test T) :=
  match q with
  | nil => nil
  | [r] => [mkTrace (tt_id r) (tt_env r) (tt_time r) (tt_visu r) (tt_tests r ++ [t])]
  | r :: q' => r :: push t q'
  end.

(** stl_driver.cpp:395-435: both overloads; the first one is the second one with no parameters. *)
Definition add_known (b : bench T) (id : string) (local : list (string * T)) : bench T :=
  let q := match b_queue b, find id (b_tests b) with
           | _ :: _, Some t => push (mkTest (t_id t) local (clone (t_formula t)) (t_pos t) (t_neg t) (t_err t)) (b_queue b)
           | q, _ => q
           end in
  mkBench (b_tests b) q (b_report b) (b_log b) (b_pos b) (b_total b + 1) (b_error b).

(** stl_driver.cpp:437-459. *)
Definition add_new (b : bench T) (id : string) (local : list (string * T)) (f : tree T) (pos neg : string) (err : bool) : bench T :=
  match b_queue b with
  | nil => mkBench (b_tests b) (b_queue b) (b_report b) (b_log b) (b_pos b) (b_total b + 1) (b_error b)
  | _ =>
      let t := mkTest id local (clone f) pos neg err in
      mkBench (assign id t (b_tests b)) (push t (b_queue b)) (b_report b) (b_log b) (b_pos b) (b_total b + 1) (b_error b)
  end.

(** stl_driver.cpp:327-329: trace_data_ptr of the top node is set, its horizon is kept, the horizons of
    the other nodes are computed from it, and nothing is reset.  The formulas are clones, whose
    param_map_ptr is null in all nodes (transducer.h:39); trace_data_ptr of their leaves is that of the
    formula given to add_stl_test, which is &data for a formula parsed by this driver. *)
Definition run_formula (S : statics T) (data : list (list T)) (t : tree T) : res (T * tree T) :=
  let E := mkEnv (s_sem S) (s_ip S) (s_M S) data [] in
  compute_rob E (set_horizon E t (start_time (node t)) (end_time (node t))).

(** stl_driver.cpp:319-354. *)
Fixpoint run_loop (S : statics T) (data : list (list T)) (ts : list (stl_test T)) (report log : string) (pos : Z) (error : bool)
  : res (string * string * Z * bool) :=
  match ts with
  | nil => Ok (report, log, pos, error)
  | t :: ts' =>
      '(rob, _) <- run_formula S data (t_formula t) ;;
      let log := log ++ t_id t ++ ": " ++ show rob ++ newline in
      let report := report ++ indent ++ t_id t ++ ": " ++ show rob in
      if nltb n0 rob
      then run_loop S data ts' (report ++ "  --> PB" ++ newline ++ (if String.eqb (t_pos t) "" then "" else indent ++ t_pos t ++ newline))
                    log (pos + 1) (if t_err t then true else error)
      else run_loop S data ts' (report ++ "  --> OK" ++ newline ++ (if String.eqb (t_neg t) "" then "" else indent ++ t_neg t ++ newline))
                    log pos error
  end.

(** stl_driver.cpp:302-359.  pop_front of an empty deque is undefined. *)
Definition run_tests (S : statics T) (data : list (list T)) (b : bench T) : res (bool * bench T) :=
  match b_queue b with
  | nil => UB
  | r :: q =>
      '(report, log, pos, error) <- run_loop S data (tt_tests r) (b_report b ++ "stl_test " ++ tt_id r ++ newline) (b_log b) (b_pos b) false ;;
      Ok (error, mkBench (b_tests b) q (report ++ newline) log pos (b_total b) error)
  end.

(** stl_driver.cpp:287-300: dump evaluates all formulas of the driver in the same way, in the order of the map.
    Their param_map_ptr is that of the last get_online_rob, or null; here it is null.  The files are not modelled. *)
Fixpoint dump (S : statics T) (data : list (list T)) (m : list (string * tree T)) : res (list (string * signal T)) :=
  match m with
  | nil => Ok []
  | (k, t) :: m' =>
      '(_, t') <- run_formula S data t ;;
      l <- dump S data m' ;;
      Ok ((k, tz t') :: l)
  end.
End Tests.
