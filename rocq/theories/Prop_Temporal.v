(** Properties of the temporal operators on signals: C11, C12, C13. *)
From Coq Require Import List QArith Qcanon.
From Verif Require Import Num Base Signal Spec Robust SignalClaims EvProof TimedProof TimedCases.
Import ListNotations.
Local Open Scope Qc_scope.

(** C11: proved for signals with a sample at their beginning and either strictly
    increasing times (jumps allowed) or no jump.  Missing: a first sample before
    the beginning, and jumps written as two samples at the same time.  The first of
    these is false of the code (C11_refuted). *)
Theorem C11_eventually_partial : forall M x f p l, samples x = p :: l -> time p = beginTime x ->
  beginTime x <= endTime x -> Forall (fun q => time q <= endTime x) (samples x) ->
  increasing (samples x) \/ (ordered (samples x) /\ continuous (samples x)) ->
  (forall t, beginTime x <= t -> t <= endTime x -> denotes (samples x) t (f t) /\ - M <= f t) ->
  exists z, compute_eventually M empty_signal x = Ok z /\ beginTime z = beginTime x /\ endTime z = endTime x /\
    ordered (samples z) /\
    forall t, beginTime x <= t -> t <= endTime x ->
      exists v, denotes (samples z) t v /\ is_sup f t (endTime x) v.
Proof. exact eventually_claim. Qed.
Print Assumptions C11_eventually_partial.

Example C11_case : exists p l, samples zig = p :: l /\ time p = beginTime zig /\
  ordered (samples zig) /\ continuous (samples zig) /\
  (forall t, beginTime zig <= t -> t <= endTime zig -> denotes (samples zig) t (fn zig t) /\ - q 100 <= fn zig t).
Proof.
  destruct zig_simple as ((p & l & E & T) & O & C & F). exists p, l. split; [auto|]. split; [auto|]. split; [auto|]. split; [auto|].
  intros t T1 T2. destruct (zig_values t T1 T2) as (A & B & _). auto.
Qed.

Theorem C11_refuted : exists x z t v w, wf x /\ continuous (samples x) /\ beginTime x <= t /\ t <= endTime x /\
  compute_eventually (q 100) empty_signal x = Ok z /\ denotes (samples z) t v /\
  denotes (samples x) (endTime x) w /\ v < w.
Proof. exact eventually_early_front. Qed.
Print Assumptions C11_refuted.

(** The receiver has to be empty. *)
Theorem C11_refuted_receiver : exists self x z p, simple self /\ simple x /\
  compute_eventually (q 100) self x = Ok z /\ endTime z = endTime x /\ In p (samples z) /\ endTime z < time p.
Proof. exact eventually_dirty_receiver. Qed.
Print Assumptions C11_refuted_receiver.

(** The bound by BigM is needed. *)
Theorem C11_refuted_below_BigM : exists x z v w, simple x /\
  compute_eventually (q 100) empty_signal x = Ok z /\ denotes (samples z) (q 0) v /\
  (forall t, beginTime x <= t -> t <= endTime x -> denotes (samples x) t w) /\ w < v.
Proof. exact eventually_saturates. Qed.
Print Assumptions C11_refuted_below_BigM.

(** C12, C13: proved for continuous signals, when the window covers the whole
    domain, or some sample is at or after begin + (b-a), or the signal is constant
    from there on.  Missing: signals with jumps, and signals whose samples all come
    before that time; the latter is false of the code (C12_refuted). *)
Theorem C12_timed_eventually_partial : forall M self x f a b, simple x ->
  (forall t, beginTime x <= t -> t <= endTime x -> denotes (samples x) t (f t) /\ - M <= f t) ->
  0 <= a -> a <= b ->
  (b - a < endTime x - beginTime x ->
     (exists q, In q (samples x) /\ beginTime x + (b - a) <= time q) \/
     (forall u, beginTime x + (b - a) <= u -> u <= endTime x -> f u = f (beginTime x + (b - a)))) ->
  exists z, compute_timed_eventually M self x a b = Ok z /\
    beginTime z = beginTime x - a /\ endTime z = endTime x - a /\ ordered (samples z) /\
    forall t, beginTime z <= t -> t <= endTime z ->
      exists v, denotes (samples z) t v /\ is_sup f (t + a) (qmin (t + b) (endTime x)) v.
Proof. exact timed_ev_claim. Qed.
Print Assumptions C12_timed_eventually_partial.

Theorem C13_timed_always_partial : forall M self x f a b, simple x ->
  (forall t, beginTime x <= t -> t <= endTime x -> denotes (samples x) t (f t) /\ f t <= M) ->
  0 <= a -> a <= b ->
  (b - a < endTime x - beginTime x ->
     (exists q, In q (samples x) /\ beginTime x + (b - a) <= time q) \/
     (forall u, beginTime x + (b - a) <= u -> u <= endTime x -> f u = f (beginTime x + (b - a)))) ->
  exists z, compute_timed_globally M self x a b = Ok z /\
    beginTime z = beginTime x - a /\ endTime z = endTime x - a /\ ordered (samples z) /\
    forall t, beginTime z <= t -> t <= endTime z ->
      exists v, denotes (samples z) t v /\ is_inf f (t + a) (qmin (t + b) (endTime x)) v.
Proof. exact timed_alw_claim. Qed.
Print Assumptions C13_timed_always_partial.

(** A window of width 2 sliding over a zig-zag of four pieces. *)
Example C12_case : simple zig /\
  (forall t, beginTime zig <= t -> t <= endTime zig ->
     denotes (samples zig) t (fn zig t) /\ - q 100 <= fn zig t /\ fn zig t <= q 100) /\
  q 3 - q 1 < endTime zig - beginTime zig /\
  exists p, In p (samples zig) /\ beginTime zig + (q 3 - q 1) <= time p.
Proof.
  split; [exact zig_simple|]. split; [exact zig_values|]. split; [qc|].
  eexists. split; [right; right; left; reflexivity|qc].
Qed.

Theorem C12_refuted : exists x z t v w, simple x /\ beginTime x <= t /\ t <= endTime x /\
  compute_timed_eventually (q 100) empty_signal x (q 0) (q 3) = Ok z /\ denotes (samples z) t v /\
  denotes (samples x) (t + q 3) w /\ t + q 3 <= endTime x /\ v < w.
Proof. exact timed_ev_loses_slope. Qed.
Print Assumptions C12_refuted.

(** Least upper and greatest lower bounds are unique. *)
Theorem is_sup_unique : forall f lo hi v w, is_sup f lo hi v -> is_sup f lo hi w -> v = w.
Proof. exact EvProof.is_sup_unique. Qed.
Print Assumptions is_sup_unique.
