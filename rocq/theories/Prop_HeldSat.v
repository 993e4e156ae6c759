(** Verdicts and margins over held signals: C52, C53. *)
From Coq Require Import List String QArith Qcanon.
From Verif Require Import Num Base Signal Spec Robust QcTac Transducer StlSpec SatSpec TreeProof StlClaims SignalClaims Witness StepSpec StepTree StepClaims StepWitness StepUntilSpec StepUntilTree StepUntilWitness HeldSatSpec HeldSat HeldSatWitness.
Import ListNotations.
Local Open Scope Qc_scope.

(** C52 for previous-value interpolation: the sign of the first number, under the
    conditions of C54.  Missing: the bounds, which are wrong there (C54_refuted_bounds). *)
Theorem C52_held_partial : forall w E t f s e weak, holding w E -> stands_for t f -> utimed (bound_value E) w f -> 0 <= s -> s <= e ->
  covers (bound_value E) (last_time (e_data E)) f e -> within_of held (eff E) (bound_value E) (e_data E) (e_M E) f ->
  uat_samples (bound_value E) (e_data E) f s e -> usettled held (eff E) (bound_value E) (e_data E) f s e ->
  forall v lo up, numbers (evaluate E t s e) = Ok (v, lo, up) ->
    (0 < v -> holds_of held weak (eff E) (bound_value E) (e_data E) f s) /\
    (v < 0 -> ~ holds_of held weak (eff E) (bound_value E) (e_data E) f s).
Proof. exact held_verdict. Qed.
Print Assumptions C52_held_partial.

(** C53: the other trace need not meet any condition but its distance. *)
Theorem C53_held_partial : forall w E t f s e, holding w E -> stands_for t f -> utimed (bound_value E) w f -> linear_atoms w f -> 0 <= s -> s <= e ->
  covers (bound_value E) (last_time (e_data E)) f e -> within_of held (eff E) (bound_value E) (e_data E) (e_M E) f ->
  uat_samples (bound_value E) (e_data E) f s e -> usettled held (eff E) (bound_value E) (e_data E) f s e ->
  forall v lo up, numbers (evaluate E t s e) = Ok (v, lo, up) ->
  forall d data' weak, 0 <= d -> near d (e_data E) data' ->
    (gain (eff E) f * d < v -> holds_of held weak (eff E) (bound_value E) data' f s) /\
    (v < - (gain (eff E) f * d) -> ~ holds_of held weak (eff E) (bound_value E) data' f s).
Proof. exact held_margin. Qed.
Print Assumptions C53_held_partial.

(** y > 0 => (x > 0 or y > 0) until_[1,2] ev_[0,2] x > 0 on four samples, all moved by 1/2. *)
Example C53_held_case : holding 2 (env_p steps) /\ stands_for (build answer) answer /\ utimed (bound_value (env_p steps)) 2 answer /\
  linear_atoms 2 answer /\ covers (bound_value (env_p steps)) (last_time steps) answer 0 /\
  within_of held (eff (env_p steps)) (bound_value (env_p steps)) steps (e_M (env_p steps)) answer /\
  uat_samples (bound_value (env_p steps)) steps answer 0 0 /\
  usettled held (eff (env_p steps)) (bound_value (env_p steps)) steps answer 0 0 /\
  numbers (evaluate (env_p steps) (build answer) 0 0) = Ok (q 1, q 1, q 1) /\
  near (Q2Qc (1 # 2)) steps steps_moved /\ gain (eff (env_p steps)) answer * Q2Qc (1 # 2) < q 1.
Proof.
  split; [exact steps_holding|]. split; [reflexivity|]. split; [exact answer_timed|]. split; [exact answer_linear|]. split; [exact answer_covers|].
  split; [exact answer_within|]. split; [exact answer_at_samples|]. split; [exact answer_settled|]. split; [exact answer_numbers|].
  split; [exact steps_near|exact answer_gain].
Qed.

(** Without the condition on the ends: three positive numbers for a formula that fails,
    three negative ones for one that holds. *)
Theorem C52_refuted_held : exists E f, holding 2 E /\ utimed (bound_value E) 2 f /\ covers (bound_value E) (last_time (e_data E)) f 0 /\
  numbers (evaluate E (build f) 0 0) = Ok (q 1, q 1, q 1) /\
  ~ holds_of held false (eff E) (bound_value E) (e_data E) f 0.
Proof.
  exists (env_p jump), alw_both. split; [exact jump_holding|].
  split; [cbn [utimed timed alw_both pos expression]; repeat match goal with |- _ /\ _ => split end; first [exact I | qdec | repeat constructor]|].
  split; [cbn [covers alw_both pos]; repeat split; qdec|]. split; [exact jump_numbers|exact jump_fails].
Qed.
Print Assumptions C52_refuted_held.
Theorem C52_refuted_held_until : exists E f, holding 2 E /\ utimed (bound_value E) 2 f /\ covers (bound_value E) (last_time (e_data E)) f 0 /\
  numbers (evaluate E (build f) 0 0) = Ok (q (-1), q (-1), q (-1)) /\
  holds_of held false (eff E) (bound_value E) (e_data E) f 0.
Proof.
  exists (env_p lastly), at_last. split; [exact lastly_holding|].
  split; [cbn [utimed timed at_last pos expression]; repeat match goal with |- _ /\ _ => split end; first [exact I | qdec | repeat constructor]|].
  split; [cbn [covers at_last pos]; repeat split; qdec|]. split; [exact at_last_numbers|exact at_last_holds].
Qed.
Print Assumptions C52_refuted_held_until.
