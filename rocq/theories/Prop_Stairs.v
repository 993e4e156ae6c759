(** The temporal operators on signals of constant pieces, which may jump: C12 to C15. *)
From Coq Require Import List QArith Qcanon.
From Verif Require Import Num Base Signal Spec Robust QcTac SignalClaims Witness StairSpec StairProof StairWitness.
Import ListNotations.
Local Open Scope Qc_scope.

(** C12, C13 for jumps between constant pieces: at every time whose window ends inside the
    data, and everywhere if the window is as long as the data or a single instant.
    Missing: the last times otherwise, and jumps between pieces that are not constant. *)
Theorem C12_stairs_partial : forall M self x f a b, stairs x ->
  (forall t, beginTime x <= t -> t <= endTime x -> denotes (samples x) t (f t) /\ - M <= f t) ->
  0 <= a -> a <= b ->
  exists z, compute_timed_eventually M self x a b = Ok z /\
    beginTime z = beginTime x - a /\ endTime z = endTime x - a /\ ordered (samples z) /\
    forall t, beginTime z <= t -> t <= endTime z -> t + b <= endTime x \/ endTime x - beginTime x <= b - a \/ a = b ->
      exists v, denotes (samples z) t v /\ is_sup f (t + a) (qmin (t + b) (endTime x)) v.
Proof. exact stairs_ev. Qed.
Print Assumptions C12_stairs_partial.

Theorem C13_stairs_partial : forall M self x f a b, stairs x ->
  (forall t, beginTime x <= t -> t <= endTime x -> denotes (samples x) t (f t) /\ f t <= M) ->
  0 <= a -> a <= b ->
  exists z, compute_timed_globally M self x a b = Ok z /\
    beginTime z = beginTime x - a /\ endTime z = endTime x - a /\ ordered (samples z) /\
    forall t, beginTime z <= t -> t <= endTime z -> t + b <= endTime x \/ endTime x - beginTime x <= b - a \/ a = b ->
      exists v, denotes (samples z) t v /\ is_inf f (t + a) (qmin (t + b) (endTime x)) v.
Proof. exact stairs_alw. Qed.
Print Assumptions C13_stairs_partial.

(** Five jumps, window [1,4]. *)
Example C12_stairs_case : stairs climbs /\
  (forall t, beginTime climbs <= t -> t <= endTime climbs ->
     denotes (samples climbs) t (at_time climbs t) /\ - q 100 <= at_time climbs t /\ at_time climbs t <= q 100) /\
  q 3 + q 4 <= endTime climbs.
Proof. split; [exact climbs_stairs|]. split; [apply within5; auto|qdec]. Qed.

(** C14, C15 for such signals: the first value, which is the one a formula reads.  The
    right operand must not change at the last instant of the data, or of the window if it
    ends there.  Missing: the other values. *)
Theorem C14_stairs_start : forall M x y f g, stairs x -> stairs y ->
  let b := beginTime y in let e := endTime y in
  beginTime x <= b -> endTime x = e -> b < e -> no_jump_at g e ->
  (forall t, beginTime x <= t -> t <= endTime x -> denotes (samples x) t (f t) /\ - M <= f t) ->
  (forall t, beginTime y <= t -> t <= endTime y -> denotes (samples y) t (g t) /\ - M <= g t) ->
  exists z v d l, compute_until M empty_signal x y = Ok z /\ beginTime z = b /\ endTime z = e /\
    samples z = mkS b v d :: l /\ is_until f g b b e v.
Proof. exact stairs_until. Qed.
Print Assumptions C14_stairs_start.

Theorem C15_stairs_start : forall M self x y f g a d, stairs x -> stairs y ->
  let b := beginTime x in let e := endTime x in
  0 <= a -> a < d -> 0 <= b -> beginTime y = b + a -> endTime y = e -> b + d <= e -> (b + d = e -> no_jump_at g e) ->
  (forall t, beginTime x <= t -> t <= endTime x -> denotes (samples x) t (f t) /\ - M <= f t /\ f t <= M) ->
  (forall t, beginTime y <= t -> t <= endTime y -> denotes (samples y) t (g t) /\ - M <= g t) ->
  exists z v c l, compute_timed_until M self x y a d = Ok z /\ beginTime z = b /\
    samples z = mkS b v c :: l /\ is_until f g b (b + a) (b + d) v.
Proof. exact stairs_timed_until. Qed.
Print Assumptions C15_stairs_start.

Example C14_stairs_case : stairs stays /\ stairs climbs1 /\ beginTime stays <= beginTime climbs1 /\ endTime stays = endTime climbs1 /\
  beginTime climbs1 < endTime climbs1 /\ no_jump_at (at_time climbs1) (endTime climbs1) /\
  (forall t, beginTime stays <= t -> t <= endTime stays ->
     denotes (samples stays) t (at_time stays t) /\ - q 100 <= at_time stays t /\ at_time stays t <= q 100) /\
  (forall t, beginTime climbs1 <= t -> t <= endTime climbs1 ->
     denotes (samples climbs1) t (at_time climbs1 t) /\ - q 100 <= at_time climbs1 t /\ at_time climbs1 t <= q 100).
Proof.
  split; [exact stays_stairs|]. split; [exact climbs1_stairs|]. split; [qdec|]. split; [reflexivity|]. split; [qdec|].
  split; [exact climbs1_end|]. split; apply within5; auto.
Qed.
(** The same operands, window [1,5]: the operands start 1 apart. *)
Example C15_stairs_case : beginTime climbs1 = beginTime stays + q 1 /\ beginTime stays + q 5 <= endTime stays /\
  exists z l, compute_timed_until (q 100) empty_signal stays climbs1 (q 1) (q 5) = Ok z /\ samples z = hold_at 0 2 :: l.
Proof.
  split; [apply Qc_is_canon; reflexivity|]. split; [qdec|]. do 2 eexists. split; [vm_compute; reflexivity|]. vm_compute. reflexivity.
Qed.

(** The right operand changes at the last instant: the value is too low. *)
Theorem C14_refuted_jump : exists x y z v d l, stairs x /\ stairs y /\ beginTime x = beginTime y /\ endTime x = endTime y /\
  beginTime x < endTime x /\ compute_until (q 100) empty_signal x y = Ok z /\ samples z = mkS (beginTime x) v d :: l /\
  forall f g w, (forall t, beginTime x <= t -> t <= endTime x -> denotes (samples x) t (f t)) ->
    (forall t, beginTime y <= t -> t <= endTime y -> denotes (samples y) t (g t)) ->
    is_until f g (beginTime x) (beginTime x) (endTime x) w -> v < w.
Proof. exact until_misses_end. Qed.
Print Assumptions C14_refuted_jump.
