(** Evaluations without undefined behaviour: C32. *)
From Coq Require Import List String QArith Qcanon.
From Verif Require Import Num Base Signal Spec Robust Transducer StlSpec TreeProof StlClaims SignalClaims Witness Driver SafeTree SafeClaims QcTac UntilWitness SafeUntil.
Import ListNotations.
Local Open Scope string_scope.
Local Open Scope Qc_scope.

(** C32: under space robustness, every formula without until, whatever its nesting, its
    expressions, the interpolation, the parameters, the numbers in the data and the
    time of evaluation (not negative), is evaluated to three numbers: no step dereferences
    an empty container, divides by zero or throws.  Missing: until, time robustness, rows
    shorter than the declared signals, windows ending before 0 and negative times, each of
    which fails (the refutations below). *)
Theorem C32_safe_partial : forall w E f t s e, e_sem E = SPACE -> trace w (e_data E) -> stands_for t f ->
  no_until (bound_value E) w f -> 0 <= e -> exists r lo up, numbers (evaluate E t s e) = Ok (r, lo, up).
Proof. exact safe_claim. Qed.
Print Assumptions C32_safe_partial.

(** The same of a call of get_online_rob, which also leaves data and parameters alone. *)
Theorem C32_online_partial : forall w S d phi t f t0, find phi (d_formulas d) = Some t -> stands_for t f ->
  d_sem d = SPACE -> trace w (d_data d) ->
  no_until (fun b => match bstr b with Some k => match find k (d_params d) with Some v => v | None => bnum b end | None => bnum b end) w f ->
  0 <= t0 -> exists S' d' r lo up, dstep S d (DOnlineRob phi t0) = Ok (S', d', OVec [r; lo; up]) /\
    d_data d' = d_data d /\ d_params d' = d_params d.
Proof. exact online_safe. Qed.
Print Assumptions C32_online_partial.

Example C32_case : exists t, stands_for t rich /\ trace 2 one_row /\ no_until (bound_value (env_of one_row)) 2 rich /\ e_sem (env_of one_row) = SPACE.
Proof. exists (build rich). split; [reflexivity|]. split; [exact one_trace|]. split; [apply rich_no_until|reflexivity]. Qed.
(** One sample, windows far beyond it, and a start after the end. *)
Example C32_values : numbers (evaluate (env_of one_row) (build rich) (q 0) (q 0)) = Ok (q 2, q 1, q 10000) /\
  numbers (evaluate (env_of one_row) (build rich) (q 7) (q 3)) = Ok (q 1, q (-10000), q 10000).
Proof. split; vm_compute; reflexivity. Qed.
Example C32_online_case : exists w os, run fresh [CDrv 0 (DSignal "x"); CDrv 0 (DSignal "y"); CDrv 0 (DAddSample [q 0; q 1; q 1]);
    CDrv 0 (DFormula "phi" rich); CDrv 0 (DOnlineRob "phi" (q 0))] = Ok (w, os) /\ nth_error os 4 = Some (OVec [q 2; q 1; q 10000]).
Proof. do 2 eexists. split; vm_compute; reflexivity. Qed.

(** With until at any place outside another until, below eventually and always too: only
    the data and the numbers the untils look at must meet the conditions of C51
    ([supplied]).  The rest of the formula is as free as in [C32_safe_partial]. *)
Theorem C32_until_partial : forall E w m, usual w E -> 0 <= e_M E -> m < e_M E -> forall f t s e, stands_for t f ->
  supplied (eff E) (bound_value E) w (e_data E) m f s e -> 0 <= e -> exists r lo up, numbers (evaluate E t s e) = Ok (r, lo, up).
Proof. exact until_safe. Qed.
Print Assumptions C32_until_partial.
Theorem C32_until_online_partial : forall w m S d phi t f t0, find phi (d_formulas d) = Some t -> stands_for t f ->
  usual w (driver_env S d) -> 0 <= s_M S -> m < s_M S ->
  supplied (eff (driver_env S d)) (bound_value (driver_env S d)) w (d_data d) m f t0 t0 -> 0 <= t0 ->
  exists S' d' r lo up, dstep S d (DOnlineRob phi t0) = Ok (S', d', OVec [r; lo; up]) /\
    d_data d' = d_data d /\ d_params d' = d_params d.
Proof. exact until_online_safe. Qed.
Print Assumptions C32_until_online_partial.

(** alw_[0,1] (2 y > x => (x + y > 1 until_[0,1] 2 y > x)) and alw_[0,50] x + y > 1, where
    the data ends long before 50. *)
Example C32_until_case : exists E f m, usual 2 E /\ 0 <= e_M E /\ m < e_M E /\
  supplied (eff E) (bound_value E) 2 (e_data E) m f 0 0 /\ last_time (e_data E) < q 20 /\
  numbers (evaluate E (build f) 0 0) = Ok (q 0, q (-10000), q 0).
Proof.
  exists (env_of pact_data), promise, (q 100). split; [apply mix_trace; auto|]. split; [qdec|]. split; [qdec|].
  split; [exact promise_supplied|]. split; [qdec|exact promise_numbers].
Qed.
Example C32_until_online_case : exists d t, find "phi" (d_formulas d) = Some t /\ stands_for t promise /\
  usual 2 (driver_env (mkStat SPACE LINEAR (q 10000)) d) /\
  supplied (eff (driver_env (mkStat SPACE LINEAR (q 10000)) d)) (bound_value (driver_env (mkStat SPACE LINEAR (q 10000)) d)) 2 (d_data d) (q 100) promise 0 0.
Proof.
  exists (mkDrv pact_data [] [("x", 1%Z); ("y", 2%Z)] [("phi", build promise)] SPACE LINEAR), (build promise).
  split; [reflexivity|]. split; [reflexivity|]. split; [apply (mix_trace pact_data); auto|exact promise_supplied].
Qed.

(** Until on a trace of one sample. *)
Theorem C32_refuted_until : exists E f, e_sem E = SPACE /\ trace 2 (e_data E) /\ evaluate E (build f) 0 0 = UB.
Proof. exists (env_of one_row), (FUntil (pos 1) (iv 0 1) (pos 2)). split; [reflexivity|]. split; [exact one_trace|]. vm_compute. reflexivity. Qed.
Print Assumptions C32_refuted_until.

(** Until whose left operand needs more data, below a conjunction: the robustness is
    computed, the lower bound is not. *)
Theorem C32_refuted_until_bound : exists E f, e_sem E = SPACE /\ trace 2 (e_data E) /\ (2 <= List.length (e_data E))%nat /\
  (exists v t, compute_rob E (prepare E (build f) 0 0) = Ok (v, t)) /\ evaluate E (build f) 0 0 = UB.
Proof.
  exists (env_of (two_rows ++ [[q 5; q 1; q 1]])%list), (FAnd (FUntil (FAlw (iv 4 6) (pos 1)) (iv 0 1) (pos 2)) (pos 1)).
  split; [reflexivity|]. split; [apply trace_check; vm_compute; reflexivity|]. split; [repeat constructor|].
  split; [|vm_compute; reflexivity]. do 2 eexists. vm_compute. reflexivity.
Qed.
Print Assumptions C32_refuted_until_bound.

(** A comparison under left or right time robustness. *)
Theorem C32_refuted_left_time : exists E, e_sem E = LEFT_TIME /\ trace 2 (e_data E) /\ evaluate E (build (pos 1)) 0 0 = UB.
Proof. exists (env_s LEFT_TIME two_rows). split; [reflexivity|]. split; [exact two_trace|]. vm_compute. reflexivity. Qed.
Print Assumptions C32_refuted_left_time.
Theorem C32_refuted_right_time : exists E, e_sem E = RIGHT_TIME /\ trace 2 (e_data E) /\ evaluate E (build (pos 1)) 0 1 = UB.
Proof. exists (env_s RIGHT_TIME two_rows). split; [reflexivity|]. split; [exact two_trace|]. vm_compute. reflexivity. Qed.
Print Assumptions C32_refuted_right_time.

(** A window that ends before 0, and an evaluation at negative times. *)
Theorem C32_refuted_window : exists E i, e_sem E = SPACE /\ trace 2 (e_data E) /\ evaluate E (build (FEv i (pos 1))) 0 0 = UB.
Proof. exists (env_of two_rows), (iv (-2) (-1)). split; [reflexivity|]. split; [exact two_trace|]. vm_compute. reflexivity. Qed.
Print Assumptions C32_refuted_window.
Theorem C32_refuted_negative_time : exists E, e_sem E = SPACE /\ trace 2 (e_data E) /\ evaluate E (build (pos 1)) (q (-2)) (q (-1)) = UB.
Proof. exists (env_of two_rows). split; [reflexivity|]. split; [exact two_trace|]. vm_compute. reflexivity. Qed.
Print Assumptions C32_refuted_negative_time.

(** A signal declared after the first sample was added, through the calls of a driver. *)
Theorem C32_refuted_late_signal : exists h, Forall (fun c => exists x, c = CDrv 0 x) h /\ run fresh h = UB.
Proof. exists late_signal. split; [unfold late_signal; repeat (constructor; [eexists; reflexivity|]); constructor|]. vm_compute. reflexivity. Qed.
Print Assumptions C32_refuted_late_signal.
