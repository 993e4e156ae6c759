(** Until: the claims in the vocabulary of Spec.v, cases and counterexamples. *)
From Coq Require Import List QArith Qcanon Bool Lia.
From Verif Require Import Num Base Signal QcTac Spec Robust Repr AndProof Lip BoolOps Closed SigProof ResizeProof SignalClaims EvProof BoundedProof TimedProof TimedCases UntilProof UntilTimed.
Import ListNotations.
Local Open Scope Qc_scope.

Lemma until_claim : forall M x y f g, simple x -> simple y -> increasing (samples x) -> increasing (samples y) ->
  let b := qmax (beginTime x) (beginTime y) in
  let e := qmin (endTime x) (endTime y) in
  b < e -> in_step x y ->
  (forall t, beginTime x <= t -> t <= endTime x -> denotes (samples x) t (f t) /\ - M <= f t) ->
  (forall t, beginTime y <= t -> t <= endTime y -> denotes (samples y) t (g t) /\ - M <= g t) ->
  exists z, compute_until M empty_signal x y = Ok z /\ beginTime z = b /\ endTime z = e /\ ordered (samples z) /\
    forall t, b <= t -> t <= e -> exists v, denotes (samples z) t v /\ is_until f g t t e v.
Proof.
  intros M x y f g Sx Sy Ix Iy b e Lt St Fx Fy.
  assert (Rx : crep f x) by (apply simple_crep; auto; intros t T1 T2; apply Fx; auto).
  assert (Ry : crep g y) by (apply simple_crep; auto; intros t T1 T2; apply Fy; auto).
  assert (B1 : beginTime x <= b /\ beginTime y <= b) by (unfold b; destruct (qmax_cases (beginTime x) (beginTime y)) as [[-> ?]|[-> ?]]; split; qlra).
  assert (B2 : e <= endTime x /\ e <= endTime y) by (unfold e; destruct (qmin_cases (endTime x) (endTime y)) as [[-> ?]|[-> ?]]; split; qlra).
  destruct B1, B2.
  destruct (compute_until_q M f g x y) as (z & E & Q); auto.
  - intros u U1 U2. fold b in U1. fold e in U2. apply Fx; qlra.
  - intros u U1 U2. fold b in U1. fold e in U2. apply Fy; qlra.
  - fold b e in Q. exists z. split; [auto|]. destruct Q as [Q1 Q2 Q3 Q4 Q5]. split; [auto|]. split; [auto|].
    split; [destruct Q3 as [_ K]; eapply prepQ_ordered; eauto|].
    intros t T1 T2. rewrite <- Q1 in T1. rewrite <- Q2 in T2.
    destruct (crepQ_eval _ _ Q3 t T1 T2) as (v & V1 & V2). exists v. split; [apply eval_denotes; auto|exact V2].
Qed.

Lemma timed_until_claim : forall M self x y f g a d, simple x -> simple y -> increasing (samples x) -> increasing (samples y) ->
  let b := qmax (beginTime x) (beginTime y) in
  let e := qmin (endTime x) (endTime y) in
  let lo := qmax (beginTime x) (b - a) in
  in_step x y -> 0 <= a -> a < d -> b < e -> lo < e - a -> a <= endTime x ->
  (forall t, beginTime x <= t -> t <= endTime x -> denotes (samples x) t (f t) /\ - M <= f t /\ f t <= M) ->
  (forall t, beginTime y <= t -> t <= endTime y -> denotes (samples y) t (g t) /\ - M <= g t) ->
  (exists q, In q (samples x) /\ beginTime x + a <= time q) ->
  (d <= e -> d - a <= endTime y - beginTime y /\ exists q, In q (samples y) /\ beginTime y + (d - a) <= time q) ->
  (e < d -> e <= lo + d) ->
  exists z, compute_timed_until M self x y a d = Ok z /\ beginTime z = lo /\ endTime z = e - a /\ ordered (samples z) /\
    forall t, lo <= t -> t <= e - a -> exists v, denotes (samples z) t v /\ is_until f g t (t + a) (qmin (t + d) e) v.
Proof.
  intros M self x y f g a d Sx Sy Ix Iy b e lo St A0 Ad Len Len' Ax Fx Fy Lx Ly Lg.
  assert (Rx : crep f x) by (apply simple_crep; auto; intros t T1 T2; apply Fx; auto).
  assert (Ry : crep g y) by (apply simple_crep; auto; intros t T1 T2; apply Fy; auto).
  destruct (timed_until_q True True M self f g x y a d) as (z & E & Q); auto.
  - intros u U1 U2. apply Fx; auto.
  - intros u U1 U2. apply Fy; auto.
  - intros _ _. left. auto.
  - intros D. destruct (Ly D). split; [auto|left; auto].
  - fold b e lo in Q. exists z. split; [auto|]. destruct Q as [Q1 Q2 Q3 Q4 Q5]. split; [auto|]. split; [auto|].
    split; [destruct Q3 as [_ K]; eapply prepQ_ordered; eauto|].
    intros t T1 T2. rewrite <- Q1 in T1. rewrite <- Q2 in T2.
    destruct (crepQ_eval _ _ Q3 t T1 T2) as (v & V1 & V2). destruct (V2 (fun _ => or_introl I) (or_introl I)) as (h & V3 & V4). exists v. split; [apply eval_denotes; auto|].
    exists h. split; [|exact V4]. rewrite Q2 in T2. intros u U1 U2. apply le_min in U2. apply V3; [auto|apply U2].
Qed.

(** Signals sampled at the same times are always in step. *)
Lemma last_unique : forall l1 q l2 s q', increasing (l1 ++ q :: l2) -> time q <= s -> Forall (fun r => s < time r) l2 ->
  In q' (l1 ++ q :: l2) -> time q' = s -> q = q' \/ time q' < time q.
Proof.
  intros l1 q l2 s q' O T F J E. apply in_app_or in J. destruct J as [J|[J|J]]; auto.
  - right. clear - O J. induction l1 as [|p l1 IH]; [destruct J|]. cbn [app increasing] in O. destruct O as [O1 O2].
    destruct J as [<-|J]; [|auto]. rewrite Forall_forall in O1. apply O1. apply in_or_app. right. left. auto.
  - exfalso. rewrite Forall_forall in F. specialize (F _ J). qlra.
Qed.
Lemma same_times_in_step : forall x y, increasing (samples y) -> beginTime x = beginTime y ->
  map time (samples x) = map time (samples y) -> Forall (fun p => beginTime x <= time p) (samples x) -> in_step x y.
Proof.
  intros x y O B E F p l1 q l2 J D T Ey T1 T2. left.
  rewrite Forall_forall in F. specialize (F _ J).
  rewrite B in *. rewrite (qmax_l (beginTime y) (beginTime y)) in * by qlra. rewrite (qmax_l (time p) (beginTime y)) in * by qlra.
  assert (K : In (time p) (map time (samples y))) by (rewrite <- E; apply in_map; auto).
  apply in_map_iff in K. destruct K as (q' & K1 & K2). rewrite Ey in O, K2.
  destruct (last_unique l1 q l2 (time p) q') as [->|K]; auto. qlra.
Qed.

(** ** Cases *)

(** Rises and falls at the times of [zig]. *)
Definition zag : signal Qc :=
  mkSig [mkS (q 0) (q 3) (q (-1)); mkS (q 1) (q 2) (q (-1)); mkS (q 3) (q 0) (q 4); mkS (q 4) (q 4) (q (-1))] (q 0) (q 6).

Lemma zag_simple : simple zag.
Proof.
  split; [do 2 eexists; split; reflexivity|]. split; [|split].
  - cbn [zag samples ordered]. repeat (split || constructor || qc).
  - cbn [zag samples continuous]. split; [|split; [|split; [|exact I]]]; apply Qc_is_canon; vm_compute; reflexivity.
  - repeat (constructor || qc).
Qed.
Lemma zag_values : forall t, beginTime zag <= t -> t <= endTime zag ->
  denotes (samples zag) t (fn zag t) /\ - q 100 <= fn zag t.
Proof.
  intros t T1 T2. pose proof (fn_eval zag t (simple_wf _ zag_simple) T1) as E.
  split; [apply eval_denotes; auto|].
  change (beginTime zag) with (q 0) in T1. change (endTime zag) with (q 6) in T2.
  eapply eval_in_bound; [exact E|]. intros p J _. cbn [zag samples] in J. unfold q in *.
  destruct J as [<-|[<-|[<-|[<-|[]]]]]; unfold line; cbn [time value deriv]; qlra.
Qed.
Lemma zig_increasing : increasing (samples zig).
Proof. cbn [zig samples increasing]. repeat (split || constructor || qc). Qed.
Lemma zag_increasing : increasing (samples zag).
Proof. cbn [zag samples increasing]. repeat (split || constructor || qc). Qed.
Lemma zig_zag_in_step : in_step zig zag.
Proof. apply same_times_in_step; [exact zag_increasing|reflexivity|reflexivity|]. repeat (constructor || qc). Qed.

(** At time 1 both operands are 2 and fall. *)
Lemma zig_zag_value : exists z v, compute_until (q 100) empty_signal zig zag = Ok z /\ denotes (samples z) (q 1) v /\ v = q 2.
Proof. do 2 eexists. split; [vm_compute; reflexivity|]. split; [den|reflexivity]. Qed.

Lemma until_out_of_step : exists x y z t v w, simple x /\ simple y /\ increasing (samples x) /\ increasing (samples y) /\
  compute_until (q 100) empty_signal x y = Ok z /\ denotes (samples z) t v /\
  endTime x = endTime y /\ beginTime x <= t /\ t <= endTime y /\ denotes (samples y) (endTime y) w /\
  (forall u r, beginTime x <= u -> u <= endTime x -> denotes (samples x) u r -> w <= r) /\ v < w.
Proof.
  exists (mkSig [mkS (q 0) (q 20) (q 0); mkS (q 1) (q 20) (q 1)] (q 0) (q 4)),
         (mkSig [mkS (q 0) (q 10) (q (-4)); mkS (q 2) (q 2) (q 1)] (q 0) (q 4)).
  eexists. exists (q 2), (q 2), (q 4).
  split.
  { split; [do 2 eexists; split; reflexivity|]. split; [|split].
    - cbn [samples ordered]. repeat (split || constructor || qc).
    - cbn [samples continuous]. split; [|exact I]. apply Qc_is_canon; vm_compute; reflexivity.
    - repeat (constructor || qc). }
  split.
  { split; [do 2 eexists; split; reflexivity|]. split; [|split].
    - cbn [samples ordered]. repeat (split || constructor || qc).
    - cbn [samples continuous]. split; [|exact I]. apply Qc_is_canon; vm_compute; reflexivity.
    - repeat (constructor || qc). }
  split; [cbn [samples increasing]; repeat (split || constructor || qc)|].
  split; [cbn [samples increasing]; repeat (split || constructor || qc)|].
  split; [vm_compute; reflexivity|]. split; [den|]. split; [reflexivity|]. split; [qc|]. split; [qc|]. split; [den|]. split; [|qc].
  intros u r U1 U2 D. apply eval_denotes in D. cbn [beginTime endTime samples] in *.
  eapply eval_in_bound; [exact D|]. intros p [<-|[<-|[]]] _; unfold line, q in *; cbn [time value deriv]; qlra.
Qed.

(** One sample each: the loop that drops the samples at the end time runs out of them. *)
Lemma until_single : exists x y, simple x /\ simple y /\ compute_until (q 100) empty_signal x y = UB.
Proof.
  exists (mkSig [mkS (q 0) (q 1) (q 0)] (q 0) (q 0)), (mkSig [mkS (q 0) (q 1) (q 0)] (q 0) (q 0)).
  split; [|split; [|vm_compute; reflexivity]];
  (split; [do 2 eexists; split; reflexivity|]; split; [|split];
    [cbn [samples ordered]; repeat (split || constructor || qc)|exact I|repeat (constructor || qc)]).
Qed.

(** Data that starts at 5 and ends at 8 with the window [0,5]: the window is compared
    with the end time 8, not with the length 3. *)
Lemma timed_until_late_start : exists x y, simple x /\ simple y /\ beginTime x = q 5 /\ endTime x = q 8 /\
  beginTime y = q 5 /\ endTime y = q 8 /\ compute_timed_until (q 100) empty_signal x y (q 0) (q 5) = UB.
Proof.
  exists (mkSig [mkS (q 5) (q 20) (q 0)] (q 5) (q 8)), (mkSig [mkS (q 5) (q 3) (q 1)] (q 5) (q 8)).
  split; [|split; [|repeat (split; [reflexivity|]); vm_compute; reflexivity]];
  (split; [do 2 eexists; split; reflexivity|]; split; [|split];
    [cbn [samples ordered]; repeat (split || constructor || qc)|exact I|repeat (constructor || qc)]).
Qed.

(** Data that starts at -4 and ends at 1 with the window [0,2]: the window is
    ignored. *)
Lemma timed_until_early_start : exists x y z v, simple x /\ simple y /\
  compute_timed_until (q 100) empty_signal x y (q 0) (q 2) = Ok z /\ denotes (samples z) (beginTime y) v /\
  (forall u w, beginTime y <= u -> u <= beginTime y + q 2 -> denotes (samples y) u w -> w < v).
Proof.
  exists (mkSig [mkS (q (-4)) (q 20) (q 0)] (q (-4)) (q 1)), (mkSig [mkS (q (-4)) (q 3) (q 1)] (q (-4)) (q 1)).
  eexists. exists (q 8).
  split; [|split; [|split; [vm_compute; reflexivity|split; [den|]]]];
  try (split; [do 2 eexists; split; reflexivity|]; split; [|split];
    [cbn [samples ordered]; repeat (split || constructor || qc)|exact I|repeat (constructor || qc)]).
  intros u w U1 U2 D. apply eval_denotes in D. cbn [beginTime samples eval] in *.
  destruct (nleb (time (mkS (q (-4)) (q 3) (q 1))) u); [|discriminate].
  assert (w = line (mkS (q (-4)) (q 3) (q 1)) u) by congruence. subst w. unfold line, q in *. cbn [time value deriv]. qlra.
Qed.

(** No sample at or after begin + (b-a): the ramp inside the window is not seen. *)
Lemma timed_until_loses_slope : exists x y z t v w, simple x /\ simple y /\
  compute_timed_until (q 100) empty_signal x y (q 0) (q 3) = Ok z /\ denotes (samples z) t v /\
  beginTime x <= t /\ t + q 3 <= endTime x /\ denotes (samples y) (t + q 3) w /\
  (forall u r, beginTime x <= u -> u <= endTime x -> denotes (samples x) u r -> w <= r) /\ v < w.
Proof.
  exists (mkSig [mkS (q 0) (q 20) (q 0)] (q 0) (q 10)), (mkSig [mkS (q 0) (q 0) (q 1)] (q 0) (q 10)).
  eexists. exists (q 5), (q 5), (q 8).
  split; [|split; [|split; [vm_compute; reflexivity|split; [den|split; [qc|split; [qc|split; [den|split; [|qc]]]]]]]];
  try (split; [do 2 eexists; split; reflexivity|]; split; [|split];
    [cbn [samples ordered]; repeat (split || constructor || qc)|exact I|repeat (constructor || qc)]).
  intros u r U1 U2 D. apply eval_denotes in D. cbn [beginTime endTime samples] in *.
  eapply eval_in_bound; [exact D|]. intros p [<-|[]] _; unfold line, q in *; cbn [time value deriv]; qlra.
Qed.
