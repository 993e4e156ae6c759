(** Evaluation on IEEE doubles: C55. *)
From Coq Require Import List String ZArith QArith Qcanon PrimFloat.
From Verif Require Import Num NumFloat Base Signal Robust Transducer Spec StlSpec TreeProof StlClaims SignalClaims StepSpec StepTree StepClaims Double LockTree DoubleClaims RoundLock DoubleWitness.
Import ListNotations.
Local Open Scope Qc_scope.
Local Existing Instance NumF.

(** C55: an evaluation on doubles has the outcome and the three numbers of the evaluation of
    the same formula over the same data in exact arithmetic.  [env_q], [fml_q] and [qval]
    take the doubles for the rational numbers they are.  Proved for held signals, every
    formula (until and parameters included) over comparisons of any expressions, if
    - all times are multiples of one power of 2 and small enough for sums of times to be
      doubles ([on_binary_times]; 2^k is at most 2^44, as the code compares times up to
      1e-14),
    - the sums, differences and products of values are doubles ([no_rounding]).
    Missing: linear interpolation and other times, where it is false, see below; for values that
    need rounding see C55_rounded_partial. *)
Theorem C55_exact_partial : forall k b w E t f s e, on_binary_times k b w E f s e -> no_rounding (env_q E) (fml_q f) -> skel t = skel (build f) ->
  agrees (numbers (evaluate E t s e)) (numbers (evaluate (env_q E) (build (fml_q f)) (qval s) (qval e))).
Proof. exact run_lock. Qed.
Print Assumptions C55_exact_partial.

(** No value is rounded if the signals and constants have few binary digits. *)
Theorem C55_digits : forall E j v f, (0 <= j)%Z -> (0 <= v)%Z -> logical f -> on_binary_values E j v f -> fits j v f -> no_rounding (env_q E) (fml_q f).
Proof. exact fits_no_rounding. Qed.
Print Assumptions C55_digits.

(** With C54: the first number is the robustness of the formula. *)
Theorem C55_held_partial : forall k b w n E t f s e, on_binary_times k b w E f s e -> no_rounding (env_q E) (fml_q f) -> skel t = skel (build f) ->
  trace n (e_data (env_q E)) -> timed (bound_value (env_q E)) n (fml_q f) -> 0 <= qval s -> qval s <= qval e ->
  covers (bound_value (env_q E)) (last_time (e_data (env_q E))) (fml_q f) (qval e) ->
  within_of held (eff (env_q E)) (bound_value (env_q E)) (e_data (env_q E)) (e_M (env_q E)) (fml_q f) ->
  at_samples (bound_value (env_q E)) (e_data (env_q E)) (fml_q f) (qval s) (qval e) ->
  settled held (eff (env_q E)) (bound_value (env_q E)) (e_data (env_q E)) (fml_q f) (qval s) (qval e) ->
  exists v lo up, numbers (evaluate E t s e) = Ok (v, lo, up) /\ finite v /\
    rob_of held (eff (env_q E)) (bound_value (env_q E)) (e_data (env_q E)) (fml_q f) (qval s) (qval v).
Proof. exact held_doubles. Qed.
Print Assumptions C55_held_partial.

Example C55_case : on_binary_times 2 8 2 Eq4 both_d 0 0 /\ on_binary_values Eq4 2 30 both_d /\ fits 2 30 both_d /\
  no_rounding (env_q Eq4) (fml_q both_d) /\ trace 2 Dq /\ timed Vq 2 (fml_q both_d) /\ covers Vq (last_time Dq) (fml_q both_d) (qval 0) /\
  within_of held (eff (env_q Eq4)) Vq Dq (e_M (env_q Eq4)) (fml_q both_d) /\
  at_samples Vq Dq (fml_q both_d) (qval 0) (qval 0) /\ settled held (eff (env_q Eq4)) Vq Dq (fml_q both_d) (qval 0) (qval 0) /\
  numbers (evaluate Eq4 (build both_d) 0%float 0%float) = Ok (-1.25, -1.25, -1.25)%float.
Proof.
  destruct quarters_values as [V1 V2]. split; [exact quarters_binary|]. split; [exact V1|]. split; [exact V2|]. split; [exact quarters_exact|].
  split; [exact quarters_trace|]. split; [exact quarters_timed|]. split; [exact quarters_covers|]. split; [exact quarters_within|].
  split; [exact quarters_at_samples|]. split; [exact quarters_settled|exact quarters_numbers].
Qed.

(** Values that need rounding: the operands of the comparisons are doubles (signals and
    constants always are), their difference is rounded.  The first number is then a nearest
    double to the robustness, and its sign is right.  [prepare] and [compute_rob] are what an
    evaluation runs for its first number.  Missing: the two bounds; operands that need
    rounding; until. *)
Theorem C55_rounded_partial : forall k b w n E t f s e, on_binary_times k b w E f s e -> exact_operands (env_q E) (fml_q f) -> skel t = skel (build f) ->
  trace n (e_data (env_q E)) -> timed (bound_value (env_q E)) n (fml_q f) -> 0 <= qval s -> qval s <= qval e ->
  covers (bound_value (env_q E)) (last_time (e_data (env_q E))) (fml_q f) (qval e) ->
  within_of held (eff (env_q E)) (bound_value (env_q E)) (e_data (env_q E)) (e_M (env_q E)) (fml_q f) ->
  at_samples (bound_value (env_q E)) (e_data (env_q E)) (fml_q f) (qval s) (qval e) ->
  apart_ends (bound_value (env_q E)) (e_data (env_q E)) (fml_q f) (qval s) (qval e) ->
  exists v t' q, compute_rob E (prepare E t s e) = Ok (v, t') /\ rounds v q /\
    rob_of held (eff (env_q E)) (bound_value (env_q E)) (e_data (env_q E)) (fml_q f) (qval s) q.
Proof. exact rounded_claim. Qed.
Print Assumptions C55_rounded_partial.

Example C55_rounded_case : on_binary_times 2 8 2 Et tens_d 0 0 /\ exact_operands (env_q Et) (fml_q tens_d) /\
  trace 2 Dt /\ timed Vt 2 (fml_q tens_d) /\ covers Vt (last_time Dt) (fml_q tens_d) (qval 0) /\
  within_of held (eff (env_q Et)) Vt Dt (e_M (env_q Et)) (fml_q tens_d) /\
  at_samples Vt Dt (fml_q tens_d) (qval 0) (qval 0) /\ apart_ends Vt Dt (fml_q tens_d) (qval 0) (qval 0) /\
  (exists v q, numbers (evaluate Et (build tens_d) 0%float 0%float) = Ok (v, v, v) /\
     numbers (evaluate (env_q Et) (build (fml_q tens_d)) (qval 0) (qval 0)) = Ok (q, q, q) /\ 0 < q /\ qval v <> q).
Proof.
  split; [exact tens_binary|]. split; [exact tens_operands|]. split; [exact tens_trace|]. split; [exact tens_timed|]. split; [exact tens_covers|].
  split; [exact tens_within|]. split; [exact tens_at_samples|]. split; [exact tens_apart|exact tens_rounded].
Qed.

(** Linear interpolation, samples at tenths: the robustness of ev_[0.5,0.7] alw_[0.3,0.3]
    (x < 0.3) at 0.4 is above 0.4, and so are the three numbers in exact arithmetic; on doubles,
    where sums of times are rounded, they are all below -0.8. *)
Theorem C55_refuted_linear : exists E f t, usual 1 (env_q E) /\ logical f /\
  (exists v, numbers (evaluate E (build f) t t) = Ok (v, v, v) /\ PrimFloat.ltb v (-0.8) = true) /\
  (exists v, numbers (evaluate (env_q E) (build (fml_q f)) (qval t) (qval t)) = Ok (v, v, v) /\ Q2Qc (4 # 10) < v) /\
  (exists v, rob (eff (env_q E)) (bound_value (env_q E)) (e_data (env_q E)) (fml_q f) (qval t) v /\ Q2Qc (4 # 10) < v).
Proof.
  exists (env_d LINEAR few), ev_alw, 0.4%float. split; [exact few_usual|]. split; [repeat split|].
  split; [exact few_doubles|]. split; [exact few_exact|exact few_holds].
Qed.
Print Assumptions C55_refuted_linear.

(** The other way round: a formula that is violated in exact arithmetic is called satisfied. *)
Theorem C55_refuted_nested : exists E f t, usual 2 (env_q E) /\ logical f /\
  (exists v, numbers (evaluate E (build f) t t) = Ok (v, v, v) /\ PrimFloat.ltb 0.5 v = true) /\
  (exists v, numbers (evaluate (env_q E) (build (fml_q f)) (qval t) (qval t)) = Ok (v, v, v) /\ v < - Q2Qc (17 # 100)).
Proof.
  exists (env_d LINEAR tenths), alw_alw, 0.8%float. split; [exact tenths_usual|]. split; [repeat split|].
  split; [exact tenths_doubles|exact tenths_exact].
Qed.
Print Assumptions C55_refuted_nested.

(** Held signals, samples at tenths: not ev_[0.2,0.6] (x > -0.1) at 0.7 is violated, the signal
    changing after the exact sum of the doubles 0.7 and 0.2; their rounded sum is the sample. *)
Theorem C55_refuted_held : exists E f t, holding 1 (env_q E) /\ logical f /\
  (exists v, numbers (evaluate E (build f) t t) = Ok (v, v, v) /\ PrimFloat.ltb 1.5 v = true) /\
  (exists v, numbers (evaluate (env_q E) (build (fml_q f)) (qval t) (qval t)) = Ok (v, v, v) /\ v < - Q2Qc (2 # 10)) /\
  (exists v, rob_of held (eff (env_q E)) (bound_value (env_q E)) (e_data (env_q E)) (fml_q f) (qval t) v /\ v < - Q2Qc (2 # 10)).
Proof.
  exists (env_d PREVIOUS six), not_ev, 0.7%float. split; [exact six_holding|]. split; [repeat split|].
  split; [exact six_doubles|]. split; [exact six_exact|exact six_violated].
Qed.
Print Assumptions C55_refuted_held.
