(** Properties of signals: C01-C10 and C19. *)
From Coq Require Import List QArith Qcanon PrimFloat.
From Verif Require Import Num NumFloat Base Signal Spec Robust Closed NegProof NegTimed SigProof SignalClaims.
Import ListNotations.
Local Open Scope Qc_scope.

(** C01: whatever is appended, the kept points are the first one and then every
    later one, in strictly increasing order of time; the domain goes from the first
    to the last; a call that is not later changes nothing. *)
Theorem C01_append_keeps_order : forall ip l, l <> [] ->
  exists x, append_all ip empty_signal l = Ok x /\ increasing (samples x) /\
    map (fun p => (time p, value p)) (samples x) = accepted None l /\
    (exists p r, samples x = p :: r /\ beginTime x = time p) /\
    (exists r p, samples x = r ++ [p] /\ endTime x = time p) /\
    (forall t v, t <= endTime x -> appendSample ip x t v = Ok x).
Proof. exact append_claim. Qed.
Print Assumptions C01_append_keeps_order.

(** On doubles the guard [t <= endTime] lets a NaN time through, and then any time. *)
Theorem C01_refuted_on_doubles : exists l x p q r,
  @append_all float NumF LINEAR (@empty_signal float NumF) l = Ok x /\
  samples x = p ++ q :: r :: nil /\ PrimFloat.ltb (time q) (time r) = false.
Proof. exact append_nan. Qed.
Print Assumptions C01_refuted_on_doubles.

Example C01_case : exists x,
  append_all LINEAR empty_signal [(q 1, q 5); (q 3, q 2); (q 2, q 9); (q 3, q 7); (q 4, q 0)] = Ok x /\
  map (fun p => (time p, value p)) (samples x) = [(q 1, q 5); (q 3, q 2); (q 4, q 0)].
Proof. eexists. split; vm_compute; reflexivity. Qed.

(** C02: under LINEAR the signal denotes the linear interpolation of the accepted
    points (which exists and is unique, below). *)
Theorem C02_linear : forall l x t v, append_all LINEAR empty_signal l = Ok x ->
  linear (accepted None l) t v -> beginTime x <= t -> denotes (samples x) t v.
Proof. exact linear_claim. Qed.
Print Assumptions C02_linear.

Theorem C02_interpolation_exists : forall l t, l <> [] -> exists v, linear l t v.
Proof. exact linear_total. Qed.
Print Assumptions C02_interpolation_exists.

Theorem C02_interpolation_unique : forall l t v w,
  rising l -> linear l t v -> linear l t w -> v = w.
Proof. exact linear_unique. Qed.
Print Assumptions C02_interpolation_unique.

Example C02_case : exists x, append_all LINEAR empty_signal [(q 1, q 5); (q 3, q 2)] = Ok x /\
  beginTime x <= q 2 /\ linear [(q 1, q 5); (q 3, q 2)] (q 2) (q 5 + (q 2 - q 5) / (q 3 - q 1) * (q 2 - q 1)).
Proof.
  eexists. split; [reflexivity|]. split; [qc|]. apply (lin_seg _ _ [] (q 1) (q 5) (q 3) (q 2) []); qc.
Qed.

(** C03: under PREVIOUS the signal denotes the latest accepted value. *)
Theorem C03_previous : forall l x t v, append_all PREVIOUS empty_signal l = Ok x ->
  previous (accepted None l) t v -> denotes (samples x) t v.
Proof. exact previous_claim. Qed.
Print Assumptions C03_previous.

Theorem C03_value_exists : forall l t t0 v0 r,
  l = (t0, v0) :: r -> rising l -> t0 <= t -> exists v, previous l t v.
Proof. exact previous_total. Qed.
Print Assumptions C03_value_exists.

Example C03_case : exists x, append_all PREVIOUS empty_signal [(q 1, q 5); (q 3, q 2)] = Ok x /\
  previous [(q 1, q 5); (q 3, q 2)] (q 2) (q 5).
Proof.
  eexists. split; [reflexivity|]. apply (prev_at _ _ [] (q 1) (q 5) [(q 3, q 2)]); try qc.
  constructor; [qc|constructor].
Qed.

(** The value denoted by a signal is unique, and exists from the beginning on. *)
Theorem denotes_unique : forall l t v w, denotes l t v -> denotes l t w -> v = w.
Proof. exact Repr.denotes_fun. Qed.
Print Assumptions denotes_unique.

Theorem denotes_exists : forall x t, wf x -> beginTime x <= t -> exists v, denotes (samples x) t v.
Proof. exact wf_denotes. Qed.
Print Assumptions denotes_exists.

(** C04. *)
Theorem C04_not : forall x,
  (forall t v, denotes (samples x) t v <-> denotes (samples (compute_not x)) t (- v)) /\
  beginTime (compute_not x) = beginTime x /\ endTime (compute_not x) = endTime x /\
  compute_not (compute_not x) = x.
Proof. exact not_claim. Qed.
Print Assumptions C04_not.

(** C05, C06, C07: no undefined behaviour, and the result is min, max or
    max(-x,y) at every time of the common domain. *)
Theorem C05_and : forall x y, wf x -> wf y ->
  qmax (beginTime x) (beginTime y) <= qmin (endTime x) (endTime y) ->
  exists z, compute_and x y = Ok z /\ pointwise x y qmin z.
Proof. exact and_claim. Qed.
Print Assumptions C05_and.

Theorem C06_or : forall x y, wf x -> wf y ->
  qmax (beginTime x) (beginTime y) <= qmin (endTime x) (endTime y) ->
  exists z, compute_or x y = Ok z /\ pointwise x y qmax z.
Proof. exact or_claim. Qed.
Print Assumptions C06_or.

Theorem C07_implies : forall x y, wf x -> wf y ->
  qmax (beginTime x) (beginTime y) <= qmin (endTime x) (endTime y) ->
  exists z, compute_implies x y = Ok z /\ pointwise x y (fun v w => qmax (- v) w) z.
Proof. exact implies_claim. Qed.
Print Assumptions C07_implies.

(** Two signals with a crossing between samples, a jump and different domains. *)
Example C05_case : wf xs1 /\ wf ys1 /\
  qmax (beginTime xs1) (beginTime ys1) <= qmin (endTime xs1) (endTime ys1).
Proof. split; [exact wf_xs1|]. split; [exact wf_ys1|]. qc. Qed.

(** The restriction to continuous signals at the right end is needed: a jump at the
    end (PREVIOUS interpolation) is lost by the conjunction. *)
Theorem C05_refuted_jump_at_end : exists x z v, wf x /\ endTime x = q 1 /\
  compute_and x x = Ok z /\ denotes (samples x) (q 1) v /\ ~ denotes (samples z) (q 1) v.
Proof. exact and_jump_at_end. Qed.
Print Assumptions C05_refuted_jump_at_end.

(** C08. *)
Theorem C08_simplify : forall p l b e,
  time p = b -> ordered (p :: l) -> Forall (fun q => b < time q) l -> b <= e ->
  exists z, simplify (mkSig (p :: l) b e) = Ok z /\ beginTime z = b /\ endTime z = e /\ ordered (samples z) /\
    (forall t v, b <= t -> t <= e -> (denotes (samples z) t v <-> denotes (p :: l) t v)).
Proof. exact simplify_claim. Qed.
Print Assumptions C08_simplify.

Example C08_case : exists z, simplify (mkSig [mkS (q 0) (q 1) (q 2); mkS (q 1) (q 3) (q 2); mkS (q 2) (q 9) (q 0)] (q 0) (q 4)) = Ok z
  /\ samples z = [mkS (q 0) (q 1) (q 2); mkS (q 2) (q 9) (q 0); mkS (q 4) (q 9) (q 0)].
Proof. eexists. split; vm_compute; reflexivity. Qed.

(** Why the hypotheses: without a sample at the beginning simplify loops forever
    or runs on an empty deque; with two it returns them out of order. *)
Theorem C08_refuted_no_sample_at_begin : exists x, wf x /\ simplify x = UB.
Proof. exact simplify_no_begin. Qed.
Print Assumptions C08_refuted_no_sample_at_begin.

Theorem C08_refuted_two_at_begin : exists x z, wf x /\ simplify x = Ok z /\ ~ ordered (samples z).
Proof. exact simplify_two_at_begin. Qed.
Print Assumptions C08_refuted_two_at_begin.

(** C09: proved when some sample is at or after [s] (or the result is a single
    instant).  Missing: when every sample is before [s]. *)
Theorem C09_resize_partial : forall x s t v, wf x -> beginTime x <= s -> s <= t -> t <= endTime x ->
  (exists q, In q (samples x) /\ s <= time q) \/ s = t ->
  exists z, resize x s t v = Ok z /\ beginTime z = s /\ endTime z = t /\ wf z /\
    (forall u w, s <= u -> u <= t -> (denotes (samples z) u w <-> denotes (samples x) u w)).
Proof. exact resize_claim. Qed.
Print Assumptions C09_resize_partial.

Example C09_case : wf xs1 /\ beginTime xs1 <= q 1 /\ q 1 <= q 3 /\ q 3 <= endTime xs1 /\
  exists p, In p (samples xs1) /\ q 1 <= time p.
Proof.
  split; [exact wf_xs1|]. split; [qc|]. split; [qc|]. split; [qc|].
  eexists. split; [right; left; reflexivity|qc].
Qed.

(** The missing case is false: the slope of the last sample is lost. *)
Theorem C09_refuted : exists x s t u w z, wf x /\ beginTime x <= s /\ s <= u /\ u <= t /\ t <= endTime x /\
  resize x s t 0 = Ok z /\ denotes (samples x) u w /\ ~ denotes (samples z) u w.
Proof. exact resize_loses_slope. Qed.
Print Assumptions C09_refuted.

(** C10. *)
Theorem C10_shift : forall x a,
  (forall t v, denotes (samples x) t v <-> denotes (samples (shift x a)) (t + a) v) /\
  beginTime (shift x a) = beginTime x + a /\ endTime (shift x a) = endTime x + a.
Proof. exact shift_claim. Qed.
Print Assumptions C10_shift.

(** C56: removeInf takes away the samples at the end that have a value or a slope of BigM or
    -BigM, and nothing else; before the first of them the signal is the same. *)
Theorem C56_remove_inf : forall M x, exists r, samples x = samples (removeInf M x) ++ r /\ Forall (infinite M) r /\
  (forall l p, samples (removeInf M x) = l ++ [p] -> ~ infinite M p) /\
  beginTime (removeInf M x) = beginTime x /\ endTime (removeInf M x) = endTime x /\
  forall t v, Forall (fun p => t < time p) r -> (denotes (samples x) t v <-> denotes (samples (removeInf M x)) t v).
Proof. exact remove_inf_claim. Qed.
Print Assumptions C56_remove_inf.

Example C56_case : samples (removeInf (q 100) (mkSig [mkS (q 0) (q 100) (q 0); mkS (q 1) (q 2) (q 1); mkS (q 2) (q 3) (q (-100)); mkS (q 3) (q (-100)) (q 0)] (q 0) (q 4))) =
  [mkS (q 0) (q 100) (q 0); mkS (q 1) (q 2) (q 1)].
Proof. vm_compute. reflexivity. Qed.

(** C19: the dual operators give the same outcome (values, domains and errors). *)
Theorem C19_or_by_and : forall x y,
  compute_or x y = rmap compute_not (compute_and (compute_not x) (compute_not y)).
Proof. exact compute_or_neg. Qed.
Print Assumptions C19_or_by_and.

Theorem C19_and_by_or : forall x y,
  compute_and x y = rmap compute_not (compute_or (compute_not x) (compute_not y)).
Proof. exact compute_and_neg. Qed.
Print Assumptions C19_and_by_or.

Theorem C19_timed_always : forall M self x a b,
  compute_timed_globally M self x a b =
  rmap compute_not (compute_timed_eventually M (compute_not self) (compute_not x) a b).
Proof. exact timed_globally_dual. Qed.
Print Assumptions C19_timed_always.

Theorem C19_timed_eventually : forall M self x a b,
  compute_timed_eventually M self x a b =
  rmap compute_not (compute_timed_globally M (compute_not self) (compute_not x) a b).
Proof. exact timed_eventually_dual. Qed.
Print Assumptions C19_timed_eventually.
