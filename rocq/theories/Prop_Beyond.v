(** Which data an evaluation depends on: C35. *)
From Coq Require Import List String QArith Qcanon.
From Verif Require Import Num Base Signal Spec Robust Transducer StlSpec TreeProof StlClaims SignalClaims Witness SafeTree BeyondProof BeyondClaims.
Import ListNotations.
Local Open Scope string_scope.
Local Open Scope Qc_scope.

(** C35, the robustness: any formula (until included), any semantics and interpolation, any
    windows and times, any rows (even too short ones).  [P] is the data up to some sample
    beyond the horizon of every subformula, [R] and [R'] are two continuations: the number
    (or the failure) is the same. *)
Theorem C35_robustness : forall E P R R' f t s e, stands_for t f -> P <> [] ->
  Forall (fun o => e + snd (snd o) < last_time P) (offsets (bound_value E) f) ->
  only_value (compute_rob (with_data E (P ++ R)) (prepare (with_data E (P ++ R)) t s e)) =
  only_value (compute_rob (with_data E (P ++ R')) (prepare (with_data E (P ++ R')) t s e)).
Proof. exact robustness_beyond. Qed.
Print Assumptions C35_robustness.

(** C35, all three numbers.  The two bounds are computed in passes of their own, each of
    which continues reading where the last one stopped.  Missing: time robustness, rows
    shorter than the signals, windows that end before 0 and negative times. *)
Theorem C35_bounds_partial : forall w E P R R' f t s e, e_sem E = SPACE -> trace w (P ++ R) -> trace w (P ++ R') ->
  stands_for t f -> windowed (bound_value E) w f -> P <> [] -> 0 <= e ->
  Forall (fun o => e + snd (snd o) < last_time P) (offsets (bound_value E) f) ->
  numbers (evaluate (with_data E (P ++ R)) t s e) = numbers (evaluate (with_data E (P ++ R')) t s e).
Proof. exact bounds_beyond. Qed.
Print Assumptions C35_bounds_partial.

(** The hypotheses are met by a formula with nested windows and until, and the three
    numbers exist and are what they are because of the data up to 4. *)
Example C35_case : exists P R R', R <> R' /\ trace 2 (P ++ R) /\ trace 2 (P ++ R') /\
  windowed (bound_value (env_of P)) 2 nested /\
  Forall (fun o => q 0 + snd (snd o) < last_time P) (offsets (bound_value (env_of P)) nested) /\
  numbers (evaluate (with_data (env_of P) (P ++ R)) (build nested) 0 0) = Ok (q 1, q 1, q 1).
Proof. exact nested_case. Qed.

(** The first sample beyond the horizon does matter: here [R] and [R'] both start after it. *)
Example C35_next_sample : exists P R R' f, trace 1 (P ++ R) /\ trace 1 (P ++ R') /\ windowed (bound_value (env_of P)) 1 f /\
  Forall (fun r => Forall (fun o => q 0 + snd (snd o) < row_time r) (offsets (bound_value (env_of P)) f)) (R ++ R') /\
  numbers (evaluate (with_data (env_of P) (P ++ R)) (build f) 0 0) <> numbers (evaluate (with_data (env_of P) (P ++ R')) (build f) 0 0).
Proof. exact next_sample. Qed.
