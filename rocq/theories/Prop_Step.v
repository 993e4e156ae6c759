(** Signals that hold their last value: C54. *)
From Coq Require Import List String QArith Qcanon.
From Verif Require Import Num Base Signal Spec Robust Transducer StlSpec TreeProof StlClaims SignalClaims Witness StepSpec StepTree StepClaims StepWitness StepUntilSpec StepUntilTree StepUntilWitness.
Import ListNotations.
Local Open Scope Qc_scope.

(** C54: under previous-value interpolation, a formula without until over comparisons of
    any expressions is evaluated to its robustness over the signals that hold each sample's
    value until the next.  The data must cover the windows; a binary operator below an
    eventually or always must not have an operand that changes at the very end of the
    interval it is evaluated over ([settled]); a comparison with an arithmetic expression on
    the left, below one, must be evaluated up to a sample ([at_samples]).  Each of these is
    needed, as the refutations below show.  Missing: until ([C54_until_partial] below), and
    the two bounds, which are wrong even here. *)
Theorem C54_held_partial : forall w E t f s e, holding w E -> stands_for t f -> timed (bound_value E) w f -> 0 <= s -> s <= e ->
  covers (bound_value E) (last_time (e_data E)) f e -> within_of held (eff E) (bound_value E) (e_data E) (e_M E) f ->
  at_samples (bound_value E) (e_data E) f s e -> settled held (eff E) (bound_value E) (e_data E) f s e ->
  exists v lo up, numbers (evaluate E t s e) = Ok (v, lo, up) /\ rob_of held (eff E) (bound_value E) (e_data E) f s v.
Proof. exact held_claim. Qed.
Print Assumptions C54_held_partial.

(** The condition on the ends holds as soon as no sample falls on them. *)
Theorem C54_apart : forall w E f s e, trace w (e_data E) -> timed (bound_value E) w f ->
  apart_ends (bound_value E) (e_data E) f s e -> settled held (eff E) (bound_value E) (e_data E) f s e.
Proof. exact apart_settled. Qed.
Print Assumptions C54_apart.

(** The robustness is one number, and with linear interpolation in place of [held] it is
    that of the other claims. *)
Theorem C54_unique : forall w E f t v v', trace w (e_data E) -> rob_of held (eff E) (bound_value E) (e_data E) f t v ->
  rob_of held (eff E) (bound_value E) (e_data E) f t v' -> v = v'.
Proof. exact held_one. Qed.
Print Assumptions C54_unique.
Theorem C54_linear : forall cst val data f t v, rob_of linear cst val data f t v <-> rob cst val data f t v.
Proof. exact rob_of_linear. Qed.
Print Assumptions C54_linear.

Example C54_case : holding 2 (env_p steps) /\ stands_for (build both) both /\ timed (bound_value (env_p steps)) 2 both /\
  covers (bound_value (env_p steps)) (last_time steps) both 0 /\
  within_of held (eff (env_p steps)) (bound_value (env_p steps)) steps (e_M (env_p steps)) both /\
  at_samples (bound_value (env_p steps)) steps both 0 0 /\
  settled held (eff (env_p steps)) (bound_value (env_p steps)) steps both 0 0 /\
  numbers (evaluate (env_p steps) (build both) 0 0) = Ok (q (-1), q (-1), q (-1)).
Proof.
  split; [exact steps_holding|]. split; [reflexivity|]. split; [exact both_timed|]. split; [exact both_covers|].
  split; [exact both_within|]. split; [exact both_at_samples|]. split; [exact both_settled|exact both_numbers].
Qed.
Example C54_apart_case : apart_ends (bound_value (env_p steps)) steps under 0 0.
Proof. exact under_apart. Qed.

(** A conjunction below always, both operands changing at the end of the window: the
    formula is violated, the evaluation calls it satisfied, with bounds that agree. *)
Theorem C54_refuted_conjunction : exists E f, holding 2 E /\ timed (bound_value E) 2 f /\ covers (bound_value E) (last_time (e_data E)) f 0 /\
  at_samples (bound_value E) (e_data E) f 0 0 /\
  numbers (evaluate E (build f) 0 0) = Ok (q 1, q 1, q 1) /\
  forall v, rob_of held (eff E) (bound_value E) (e_data E) f 0 v -> v <= q (-3).
Proof.
  exists (env_p jump), alw_both. split; [exact jump_holding|]. split; [cbn [timed alw_both pos expression]; repeat match goal with |- _ /\ _ => split end; first [exact I | qdec | repeat constructor]|].
  split; [cbn [covers alw_both pos]; repeat split; qdec|]. split; [cbn [at_samples alw_both pos is_leaf]; auto|].
  split; [exact jump_numbers|exact jump_value].
Qed.
Print Assumptions C54_refuted_conjunction.

(** The two bounds: the robustness is -5, both bounds are 2. *)
Theorem C54_refuted_bounds : exists E f, holding 1 E /\ timed (bound_value E) 1 f /\ covers (bound_value E) (last_time (e_data E)) f 0 /\
  at_samples (bound_value E) (e_data E) f 0 0 /\ settled held (eff E) (bound_value E) (e_data E) f 0 0 /\
  numbers (evaluate E (build f) 0 0) = Ok (q (-5), q 2, q 2) /\
  forall v, rob_of held (eff E) (bound_value E) (e_data E) f 0 v -> v <= q (-5).
Proof.
  exists (env_p dip), alw_now. split; [exact dip_holding|]. split; [cbn [timed alw_now pos expression]; repeat match goal with |- _ /\ _ => split end; first [exact I | qdec | repeat constructor]|].
  split; [cbn [covers alw_now pos]; repeat split; qdec|]. split; [cbn [at_samples alw_now pos is_leaf]; auto|]. split; [exact I|].
  split; [exact dip_numbers|exact dip_value].
Qed.
Print Assumptions C54_refuted_bounds.

(** Data that do not cover the windows: the last value is not held until their end. *)
Theorem C54_refuted_uncovered : exists E f s, holding 1 E /\ timed (bound_value E) 1 f /\ 0 <= s /\
  at_samples (bound_value E) (e_data E) f s s /\ settled held (eff E) (bound_value E) (e_data E) f s s /\
  numbers (evaluate E (build f) s s) = Ok (q 4, q 4, q 4) /\
  forall v, rob_of held (eff E) (bound_value E) (e_data E) f s v -> v <= q (-3).
Proof.
  exists (env_p short), alw_soon, (q 2). split; [exact short_holding|]. split; [cbn [timed alw_soon pos expression]; repeat match goal with |- _ /\ _ => split end; first [exact I | qdec | repeat constructor]|].
  split; [qdec|]. split; [cbn [at_samples alw_soon pos is_leaf]; auto|]. split; [exact I|].
  split; [exact short_numbers|exact short_value].
Qed.
Print Assumptions C54_refuted_uncovered.

(** A sum below always and eventually, its last instant not a sample: x + 0 is not x. *)
Theorem C54_refuted_sum : exists E f, holding 1 E /\ timed (bound_value E) 1 f /\ covers (bound_value E) (last_time (e_data E)) f 0 /\
  settled held (eff E) (bound_value E) (e_data E) f 0 0 /\
  numbers (evaluate E (build f) 0 0) = Ok (q 3, q (-10000), q 3) /\
  forall v, rob_of held (eff E) (bound_value E) (e_data E) f 0 v -> v <= q 2.
Proof.
  exists (env_p sparse), alw_plus. split; [exact sparse_holding|]. split; [cbn [timed alw_plus plus0 expression]; repeat match goal with |- _ /\ _ => split end; first [exact I | qdec | repeat constructor]|].
  split; [cbn [covers alw_plus plus0]; repeat split; qdec|]. split; [exact I|].
  split; [exact sparse_numbers|exact sparse_value].
Qed.
Print Assumptions C54_refuted_sum.

(** C54 with until over such formulas, below not, and, or and implies, windows [0 <= a < b]:
    the robustness pass does not fail and gives the robustness, and it is the first number
    of every evaluation that returns.  The operands are to satisfy what the operand of an
    eventually does, and an until evaluated at a single instant needs a right operand that
    does not change at the very end of the window.  Missing: until below eventually, always
    and until, windows [a, a], that the passes for the two bounds return, and the bounds. *)
Theorem C54_until_partial : forall w E t f s e, holding w E -> stands_for t f -> utimed (bound_value E) w f -> 0 <= s -> s <= e ->
  covers (bound_value E) (last_time (e_data E)) f e -> within_of held (eff E) (bound_value E) (e_data E) (e_M E) f ->
  uat_samples (bound_value E) (e_data E) f s e -> usettled held (eff E) (bound_value E) (e_data E) f s e ->
  (exists v t', compute_rob E (prepare E t s e) = Ok (v, t') /\ rob_of held (eff E) (bound_value E) (e_data E) f s v) /\
  forall v lo up, numbers (evaluate E t s e) = Ok (v, lo, up) -> rob_of held (eff E) (bound_value E) (e_data E) f s v.
Proof. exact held_until_claim. Qed.
Print Assumptions C54_until_partial.

Theorem C54_until_apart : forall w E f s e, trace w (e_data E) -> utimed (bound_value E) w f ->
  uapart (bound_value E) (e_data E) f s e -> usettled held (eff E) (bound_value E) (e_data E) f s e.
Proof. exact uapart_settled. Qed.
Print Assumptions C54_until_apart.

Example C54_until_case : holding 2 (env_p steps) /\ stands_for (build answer) answer /\ utimed (bound_value (env_p steps)) 2 answer /\
  covers (bound_value (env_p steps)) (last_time steps) answer 0 /\
  within_of held (eff (env_p steps)) (bound_value (env_p steps)) steps (e_M (env_p steps)) answer /\
  uat_samples (bound_value (env_p steps)) steps answer 0 0 /\
  usettled held (eff (env_p steps)) (bound_value (env_p steps)) steps answer 0 0 /\
  numbers (evaluate (env_p steps) (build answer) 0 0) = Ok (q 1, q 1, q 1).
Proof.
  split; [exact steps_holding|]. split; [reflexivity|]. split; [exact answer_timed|]. split; [exact answer_covers|].
  split; [exact answer_within|]. split; [exact answer_at_samples|]. split; [exact answer_settled|exact answer_numbers].
Qed.
Example C54_until_apart_case : uapart (bound_value (env_p steps)) steps answer 0 0.
Proof. exact answer_apart. Qed.

(** The right operand of until becomes true at the last instant of the window: it is missed. *)
Theorem C54_refuted_until : exists E f, holding 2 E /\ utimed (bound_value E) 2 f /\ covers (bound_value E) (last_time (e_data E)) f 0 /\
  within_of held (eff E) (bound_value E) (e_data E) (e_M E) f /\ uat_samples (bound_value E) (e_data E) f 0 0 /\
  numbers (evaluate E (build f) 0 0) = Ok (q (-1), q (-1), q (-1)) /\
  forall v, rob_of held (eff E) (bound_value E) (e_data E) f 0 v -> q 1 <= v.
Proof.
  exists (env_p lastly), at_last. split; [exact lastly_holding|].
  split; [cbn [utimed timed at_last pos expression]; repeat match goal with |- _ /\ _ => split end; first [exact I | qdec | repeat constructor]|].
  split; [cbn [covers at_last pos]; repeat split; qdec|].
  split; [cbn [within_of at_last]; split; apply pos_within_p; repeat constructor; qdec|].
  split; [cbn [uat_samples at_samples at_last pos is_leaf]; auto|]. split; [exact at_last_numbers|exact at_last_value].
Qed.
Print Assumptions C54_refuted_until.
