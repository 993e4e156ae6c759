(** Properties of the boolean abstraction and of time robustness: C16, C17, C18. *)
From Coq Require Import List QArith Qcanon.
From Verif Require Import Num Base Signal Spec Robust SignalClaims BooleanProof BooleanClaims.
Import ListNotations.
Local Open Scope Qc_scope.

(** C16: proved for sampled signals (a sample at the beginning, increasing times,
    positive length) without a piece that rises from zero, at every time before the end
    at which the signal is not zero.  Missing: pieces that rise from zero (C16_refuted),
    zeros (C16_refuted_zero), signals of one point (C16_refuted_point), the end of the
    domain, where the value of the last piece is kept. *)
Theorem C16_boolean_partial : forall y, sampled y -> no_zero_rise y -> exists z, compute_boolean y = Ok z /\
  beginTime z = beginTime y /\ endTime z = endTime y /\ increasing (samples z) /\
  forall t v, t < endTime y -> denotes (samples y) t v ->
    (0 < v -> denotes (samples z) t 1) /\ (v < 0 -> denotes (samples z) t 0) /\
    (v = 0 -> denotes (samples z) t 0 \/ denotes (samples z) t 1).
Proof. exact boolean_claim. Qed.
Print Assumptions C16_boolean_partial.

(** Exactly when 1 is reported, for every sampled signal: p is the piece at t. *)
Theorem C16_exact : forall y, sampled y -> exists z, compute_boolean y = Ok z /\
  beginTime z = beginTime y /\ endTime z = endTime y /\ increasing (samples z) /\
  forall t l1 p l2, t < endTime y -> samples y = l1 ++ p :: l2 -> time p <= t -> Forall (fun q => t < time q) l2 ->
    exists v, (v = 0 \/ v = 1) /\ denotes (samples z) t v /\
      (v = 1 <-> (0 < line p t /\ value p <> 0) \/ (line p t = 0 /\ value p < 0)).
Proof. exact boolean_exact. Qed.
Print Assumptions C16_exact.

Example C16_case : sampled saw /\ no_zero_rise saw.
Proof. split; [exact saw_sampled|exact saw_no_zero_rise]. Qed.
Example C16_value : exists z, compute_boolean saw = Ok z /\ denotes (samples z) (q 2) 0 /\ denotes (samples z) (q 3) 1.
Proof. exact saw_boolean. Qed.

Theorem C16_refuted : exists y z t v, sampled y /\ compute_boolean y = Ok z /\ t < endTime y /\
  denotes (samples y) t v /\ 0 < v /\ denotes (samples z) t 0.
Proof. exact rise_unseen. Qed.
Print Assumptions C16_refuted.

Theorem C16_refuted_zero : exists y z t, sampled y /\ no_zero_rise y /\ compute_boolean y = Ok z /\ t < endTime y /\
  denotes (samples y) t 0 /\ denotes (samples z) t 1.
Proof. exact zero_seen. Qed.
Print Assumptions C16_refuted_zero.

Theorem C16_refuted_point : exists y z, simple y /\ denotes (samples y) (beginTime y) (q 1) /\ compute_boolean y = Ok z /\ samples z = nil /\
  compute_left_time_rob y = Ok z.
Proof. exact point_lost. Qed.
Print Assumptions C16_refuted_point.

(** C17: at a time t before the end with value v <> 0, the result is the time since s,
    with the sign of v and the marker neps (1e-14), where y does not take the other
    sign from s to t, and s is the beginning or ends a phase of the other sign.
    Missing: as for C16. *)
Theorem C17_left_time_partial : forall y, sampled y -> no_zero_rise y -> exists z, compute_left_time_rob y = Ok z /\
  beginTime z = beginTime y /\ endTime z = endTime y /\ ordered (samples z) /\
  forall t v, beginTime y <= t -> t < endTime y -> denotes (samples y) t v ->
    (0 < v -> exists s, beginTime y <= s /\ s <= t /\ denotes (samples z) t (neps + (t - s)) /\
       (forall u w, s <= u -> u <= t -> denotes (samples y) u w -> 0 <= w) /\
       (s = beginTime y \/ exists s', beginTime y <= s' /\ s' < s /\ forall u w, s' <= u -> u < s -> denotes (samples y) u w -> w <= 0)) /\
    (v < 0 -> exists s, beginTime y <= s /\ s <= t /\ denotes (samples z) t (- (neps + (t - s))) /\
       (forall u w, s <= u -> u <= t -> denotes (samples y) u w -> w <= 0) /\
       (s = beginTime y \/ exists s', beginTime y <= s' /\ s' < s /\ forall u w, s' <= u -> u < s -> denotes (samples y) u w -> 0 <= w)).
Proof. exact left_time_claim. Qed.
Print Assumptions C17_left_time_partial.

Example C17_case : sampled saw /\ no_zero_rise saw.
Proof. split; [exact saw_sampled|exact saw_no_zero_rise]. Qed.
Example C17_value : exists z, compute_left_time_rob saw = Ok z /\ denotes (samples z) (q 2) (- (neps + q 1)) /\
  denotes (samples z) (q 3) (neps + Q2Qc (1 # 2)).
Proof. exact saw_left. Qed.

(** A signal that rises from zero is given a negative age. *)
Theorem C17_refuted : exists y z t v w, sampled y /\ compute_left_time_rob y = Ok z /\ t < endTime y /\
  denotes (samples y) t v /\ 0 < v /\ denotes (samples z) t w /\ w < 0.
Proof. exact left_rise_unseen. Qed.
Print Assumptions C17_refuted.

(** C18: false of the code on every sampled signal, the sample past the end is read. *)
Theorem C18_refuted : forall y, sampled y -> compute_right_time_rob y = UB.
Proof. exact right_time_claim. Qed.
Print Assumptions C18_refuted.

Example C18_case : sampled saw.
Proof. exact saw_sampled. Qed.
