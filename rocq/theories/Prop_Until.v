(** Properties of until on signals: C14, C15. *)
From Coq Require Import List QArith Qcanon.
From Verif Require Import Num Base Signal Spec Robust SignalClaims TimedCases UntilClaims UntilStart.
Import ListNotations.
Local Open Scope Qc_scope.

(** C14: proved for continuous signals with strictly increasing times that are in
    step (Spec.v), on a domain of positive length and with an empty receiver.  Missing:
    signals out of step (false of the code, C14_refuted), domains of one point
    (undefined behaviour, C14_refuted_single_sample), repeated times (for which the first
    value is right, C14_start). *)
Theorem C14_until_partial : forall M x y f g, simple x -> simple y -> increasing (samples x) -> increasing (samples y) ->
  let b := qmax (beginTime x) (beginTime y) in
  let e := qmin (endTime x) (endTime y) in
  b < e -> in_step x y ->
  (forall t, beginTime x <= t -> t <= endTime x -> denotes (samples x) t (f t) /\ - M <= f t) ->
  (forall t, beginTime y <= t -> t <= endTime y -> denotes (samples y) t (g t) /\ - M <= g t) ->
  exists z, compute_until M empty_signal x y = Ok z /\ beginTime z = b /\ endTime z = e /\ ordered (samples z) /\
    forall t, b <= t -> t <= e -> exists v, denotes (samples z) t v /\ is_until f g t t e v.
Proof. exact until_claim. Qed.
Print Assumptions C14_until_partial.

(** Signals sampled at the same times are in step. *)
Theorem C14_same_times : forall x y, increasing (samples y) -> beginTime x = beginTime y ->
  map time (samples x) = map time (samples y) -> Forall (fun p => beginTime x <= time p) (samples x) -> in_step x y.
Proof. exact same_times_in_step. Qed.
Print Assumptions C14_same_times.

(** Two signals with rising and falling pieces, and one value of the result. *)
Example C14_case : simple zig /\ simple zag /\ increasing (samples zig) /\ increasing (samples zag) /\
  qmax (beginTime zig) (beginTime zag) < qmin (endTime zig) (endTime zag) /\ in_step zig zag /\
  (forall t, beginTime zig <= t -> t <= endTime zig -> denotes (samples zig) t (fn zig t) /\ - q 100 <= fn zig t /\ fn zig t <= q 100) /\
  (forall t, beginTime zag <= t -> t <= endTime zag -> denotes (samples zag) t (fn zag t) /\ - q 100 <= fn zag t).
Proof.
  split; [exact zig_simple|]. split; [exact zag_simple|]. split; [exact zig_increasing|]. split; [exact zag_increasing|].
  split; [qc|]. split; [exact zig_zag_in_step|]. split; [exact zig_values|exact zag_values].
Qed.
Example C14_value : exists z v, compute_until (q 100) empty_signal zig zag = Ok z /\ denotes (samples z) (q 1) v /\ v = q 2.
Proof. exact zig_zag_value. Qed.

(** A sample of the left operand inside a falling piece of the right one: the result
    is below a value that the right operand reaches while the left one is higher. *)
Theorem C14_refuted : exists x y z t v w, simple x /\ simple y /\ increasing (samples x) /\ increasing (samples y) /\
  compute_until (q 100) empty_signal x y = Ok z /\ denotes (samples z) t v /\
  endTime x = endTime y /\ beginTime x <= t /\ t <= endTime y /\ denotes (samples y) (endTime y) w /\
  (forall u r, beginTime x <= u -> u <= endTime x -> denotes (samples x) u r -> w <= r) /\ v < w.
Proof. exact until_out_of_step. Qed.
Print Assumptions C14_refuted.

Theorem C14_refuted_single_sample : exists x y, simple x /\ simple y /\ compute_until (q 100) empty_signal x y = UB.
Proof. exact until_single. Qed.
Print Assumptions C14_refuted_single_sample.

(** The first value is right whether or not the signals are in step and whether or not
    times repeat. *)
Theorem C14_start : forall M x y f g, simple x -> simple y ->
  let b := qmax (beginTime x) (beginTime y) in
  let e := qmin (endTime x) (endTime y) in
  b < e ->
  (forall t, beginTime x <= t -> t <= endTime x -> denotes (samples x) t (f t) /\ - M <= f t) ->
  (forall t, beginTime y <= t -> t <= endTime y -> denotes (samples y) t (g t) /\ - M <= g t) ->
  exists z v d l, compute_until M empty_signal x y = Ok z /\ beginTime z = b /\ endTime z = e /\
    samples z = mkS b v d :: l /\ is_until f g b b e v.
Proof. exact until_start. Qed.
Print Assumptions C14_start.
Example C14_start_case : simple rises /\ simple falls /\ ~ in_step rises falls /\ ~ increasing (samples falls) /\
  qmax (beginTime rises) (beginTime falls) < qmin (endTime rises) (endTime falls) /\
  (forall t, beginTime rises <= t -> t <= endTime rises -> denotes (samples rises) t (fn rises t) /\ - q 100 <= fn rises t /\ fn rises t <= q 100) /\
  (forall t, beginTime falls <= t -> t <= endTime falls -> denotes (samples falls) t (fn falls t) /\ - q 100 <= fn falls t /\ fn falls t <= q 100).
Proof.
  split; [exact rises_simple|]. split; [exact falls_simple|]. destruct rises_falls as [A B]. split; [exact A|]. split; [exact B|].
  split; [qc|]. split; [exact rises_values|exact falls_values].
Qed.

(** C15: proved under the conditions of C14, for a window no longer than the data with
    a sample of each operand late enough (as for C12), or a window that reaches the end
    of the data from every time.  Missing: the other windows, which are false of the
    code (the three refutations below). *)
Theorem C15_timed_until_partial : forall M self x y f g a d, simple x -> simple y -> increasing (samples x) -> increasing (samples y) ->
  let b := qmax (beginTime x) (beginTime y) in
  let e := qmin (endTime x) (endTime y) in
  let lo := qmax (beginTime x) (b - a) in
  in_step x y -> 0 <= a -> a < d -> b < e -> lo < e - a -> a <= endTime x ->
  (forall t, beginTime x <= t -> t <= endTime x -> denotes (samples x) t (f t) /\ - M <= f t /\ f t <= M) ->
  (forall t, beginTime y <= t -> t <= endTime y -> denotes (samples y) t (g t) /\ - M <= g t) ->
  (exists q, In q (samples x) /\ beginTime x + a <= time q) ->
  (d <= e -> d - a <= endTime y - beginTime y /\ exists q, In q (samples y) /\ beginTime y + (d - a) <= time q) ->
  (e < d -> e <= lo + d) ->
  exists z, compute_timed_until M self x y a d = Ok z /\ beginTime z = lo /\ endTime z = e - a /\ ordered (samples z) /\
    forall t, lo <= t -> t <= e - a -> exists v, denotes (samples z) t v /\ is_until f g t (t + a) (qmin (t + d) e) v.
Proof. exact timed_until_claim. Qed.
Print Assumptions C15_timed_until_partial.

(** The window [1,3] on data from 0 to 6; the remaining hypotheses are in C14_case. *)
Example C15_case : let b := qmax (beginTime zig) (beginTime zag) in let e := qmin (endTime zig) (endTime zag) in
  b < e /\ qmax (beginTime zig) (b - q 1) < e - q 1 /\ q 1 <= endTime zig /\ (exists p, In p (samples zig) /\ beginTime zig + q 1 <= time p) /\
  q 3 <= e /\ q 3 - q 1 <= endTime zag - beginTime zag /\ (exists p, In p (samples zag) /\ beginTime zag + (q 3 - q 1) <= time p).
Proof.
  split; [qc|]. split; [qc|]. split; [qc|]. split; [eexists; split; [right; left; reflexivity|qc]|]. split; [qc|]. split; [qc|].
  eexists. split; [right; right; left; reflexivity|qc].
Qed.

(** Data from 5 to 8, window [0,5]. *)
Theorem C15_refuted : exists x y, simple x /\ simple y /\ beginTime x = q 5 /\ endTime x = q 8 /\
  beginTime y = q 5 /\ endTime y = q 8 /\ compute_timed_until (q 100) empty_signal x y (q 0) (q 5) = UB.
Proof. exact timed_until_late_start. Qed.
Print Assumptions C15_refuted.

(** Data from -4 to 1, window [0,2]: the result is above every value in the window. *)
Theorem C15_refuted_early_start : exists x y z v, simple x /\ simple y /\
  compute_timed_until (q 100) empty_signal x y (q 0) (q 2) = Ok z /\ denotes (samples z) (beginTime y) v /\
  (forall u w, beginTime y <= u -> u <= beginTime y + q 2 -> denotes (samples y) u w -> w < v).
Proof. exact timed_until_early_start. Qed.
Print Assumptions C15_refuted_early_start.

(** Window [0,3] on one piece from 0 to 10: the result is below the value at its end. *)
Theorem C15_refuted_slope : exists x y z t v w, simple x /\ simple y /\
  compute_timed_until (q 100) empty_signal x y (q 0) (q 3) = Ok z /\ denotes (samples z) t v /\
  beginTime x <= t /\ t + q 3 <= endTime x /\ denotes (samples y) (t + q 3) w /\
  (forall u r, beginTime x <= u -> u <= endTime x -> denotes (samples x) u r -> w <= r) /\ v < w.
Proof. exact timed_until_loses_slope. Qed.
Print Assumptions C15_refuted_slope.

(** The first value of a timed until, for operands that start the window's lower bound
    apart, as formulas hand them over: right whether or not the signals are in step, if
    the first window ends inside the data or the data ends before [d]. *)
Theorem C15_start : forall M self x y f g a d, simple x -> simple y ->
  let b := beginTime x in let e := qmin (endTime x) (endTime y) in
  0 <= a -> a < d -> 0 <= b -> beginTime y = b + a -> b + d <= e \/ (e < d /\ b + a < e) ->
  (forall t, beginTime x <= t -> t <= endTime x -> denotes (samples x) t (f t) /\ - M <= f t /\ f t <= M) ->
  (forall t, beginTime y <= t -> t <= endTime y -> denotes (samples y) t (g t) /\ - M <= g t) ->
  exists z v c l, compute_timed_until M self x y a d = Ok z /\ beginTime z = b /\ endTime z = e - a /\
    samples z = mkS b v c :: l /\ is_until f g b (b + a) (qmin (b + d) e) v.
Proof. exact timed_until_start. Qed.
Print Assumptions C15_start.
Example C15_start_case : let e := qmin (endTime rises) (endTime later) in simple rises /\ simple later /\
  beginTime later = beginTime rises + q 1 /\ beginTime rises + q 3 <= e /\ e < q 5 /\ beginTime rises + q 1 < e /\
  (forall t, beginTime later <= t -> t <= endTime later -> denotes (samples later) t (fn later t) /\ - q 100 <= fn later t /\ fn later t <= q 100).
Proof.
  split; [exact rises_simple|]. split; [exact later_simple|]. split; [apply Qc_is_canon; vm_compute; reflexivity|].
  split; [qc|]. split; [qc|]. split; [qc|exact later_values].
Qed.
