(** C60: which tests run_tests runs.  Histories, [latest] and [added] are in TestsQueue.v. *)
From Coq Require Import List Bool String Ascii ZArith Qcanon Lia.
From Verif Require Import Num Base Signal Robust Transducer TreeProof Driver Tests TestsProof TestsQueue TestsClaims.
Import ListNotations.
Local Open Scope string_scope.
Local Open Scope nat_scope.
Local Open Scope list_scope.

(** After any calls, the trace test opened by the call after [pre], if it has not been run, has the place in the queue given by the trace tests opened
    before it and the runs so far, and holds the tests added before the next one was opened: the given ones, and those known by name, in order. *)
Theorem C60_queue : forall (T : Type) (N : Num T) (show : T -> string) pre id env time visu seg post b,
  bcalls show new_bench (pre ++ BTrace id env time visu :: seg ++ post) = Ok b ->
  opened seg = 0 -> match post with [] => True | o :: _ => is_trace o = true end ->
  runs (pre ++ BTrace id env time visu :: seg ++ post) <= opened pre ->
  exists ts, added (pre ++ [BTrace id env time visu]) seg ts /\
    nth_error (b_queue b) (opened pre - runs (pre ++ BTrace id env time visu :: seg ++ post)) = Some (mkTrace id env time visu ts).
Proof. exact @queue_ok. Qed.
Print Assumptions C60_queue.

(** The run after as many runs as trace tests were opened before this one is the run of this one: it reports on its tests. *)
Theorem C60_run : forall (T : Type) (N : Num T) (show : T -> string) pre id env time visu seg post b (St : statics T) data,
  bcalls show new_bench (pre ++ BTrace id env time visu :: seg ++ post) = Ok b ->
  opened seg = 0 -> match post with [] => True | o :: _ => is_trace o = true end ->
  runs (pre ++ BTrace id env time visu :: seg ++ post) = opened pre ->
  exists ts, added (pre ++ [BTrace id env time visu]) seg ts /\
    forall robs, Forall2 (fun t x => exists t', run_formula St data (t_formula t) = Ok (x, t')) ts robs ->
      exists b', run_tests show St data b = Ok (existsb fails (combine ts robs), b') /\
        b_log b' = (b_log b ++ lines (log_line show) (combine ts robs))%string /\
        b_report b' = (b_report b ++ "stl_test " ++ id ++ newline ++ lines (report_lines show) (combine ts robs) ++ newline)%string /\
        b_pos b' = (b_pos b + counts (combine ts robs))%Z.
Proof. exact @next_run. Qed.
Print Assumptions C60_run.

(** The trace tests that wait, and the total of tests. *)
Theorem C60_total : forall (T : Type) (N : Num T) (show : T -> string) h b, bcalls show new_bench h = Ok b ->
  List.length (b_queue b) + runs h = opened h /\ b_total b = Z.of_nat (count is_add h).
Proof. exact @total_ok. Qed.
Print Assumptions C60_total.

Definition queue_f : tree Qc := build (FAtom (FSig "x" 1) GREATERTHAN (FConst None (qz 0))).
Definition queue_pre : list (bcall Qc) := [BTrace "a" "e" (qz 0) false; BNew "u" [] queue_f "p" "n" true; BTrace "a2" "e" (qz 0) false].
Definition queue_seg : list (bcall Qc) := [BKnown "u" [("k", qz 1)]; BNew "u" [] (build (FNot (FConst None (qz 1)))) "" "" false; BKnown "v" []; BKnown "u" []].
Definition queue_post : list (bcall Qc) := [BTrace "c" "e" (qz 0) true; BKnown "u" []].
Example C60_queue_case : exists b, bcalls (fun _ => "") new_bench (queue_pre ++ BTrace "b" "e" (qz 5) false :: queue_seg ++ queue_post) = Ok b /\
  opened queue_seg = 0 /\ runs (queue_pre ++ BTrace "b" "e" (qz 5) false :: queue_seg ++ queue_post) <= opened queue_pre /\
  option_map tt_tests (nth_error (b_queue b) 2) =
    Some [mkTest "u" [("k", qz 1)] queue_f "p" "n" true; mkTest "u" [] (build (FNot (FConst None (qz 1)))) "" "" false; mkTest "u" [] (build (FNot (FConst None (qz 1)))) "" "" false].
Proof. eexists. split; [reflexivity|]. split; [reflexivity|]. split; [apply Nat.leb_le; reflexivity|reflexivity]. Qed.
(** Without runs, and with one: a trace test without tests is run first. *)
Example C60_run_case : exists b, bcalls (fun _ => "") new_bench ([BTrace "a" "e" (qz 0) false] ++ BTrace "b" "e" (qz 5) false :: ([BNew "u" [] queue_f "p" "n" true; BRun stat0 []] ++ [])) = Ok b /\
  runs ([BTrace "a" "e" (qz 0) false] ++ BTrace "b" "e" (qz 5) false :: ([BNew "u" [] queue_f "p" "n" true; BRun stat0 []] ++ [])) = opened [BTrace "a" "e" (qz 0) false].
Proof. eexists. split; reflexivity. Qed.
