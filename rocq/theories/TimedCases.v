(** Cases and counterexamples for the temporal operators. *)
From Coq Require Import List QArith Qcanon Bool Lia.
From Verif Require Import Num Base Signal QcTac Spec Robust Repr AndProof Closed SigProof SignalClaims EvProof TimedProof.
Import ListNotations.
Local Open Scope Qc_scope.

(** A zig-zag on [0,6]. *)
Definition zig : signal Qc :=
  mkSig [mkS (q 0) (q 0) (q 2); mkS (q 1) (q 2) (q (-3)); mkS (q 3) (q (-4)) (q 5); mkS (q 4) (q 1) (q 0)] (q 0) (q 6).

Lemma zig_simple : simple zig.
Proof.
  split; [do 2 eexists; split; reflexivity|]. split; [|split].
  - cbn [zig samples ordered]. repeat (split || constructor || qc).
  - cbn [zig samples continuous]. split; [|split; [|split; [|exact I]]]; apply Qc_is_canon; vm_compute; reflexivity.
  - repeat (constructor || qc).
Qed.

Lemma simple_wf : forall x, simple x -> wf x.
Proof.
  intros x ((p & l & E & T) & O & C & F). split; [auto|]. split.
  - rewrite E in F. apply Forall_inv in F. rewrite T in F. auto.
  - exists p, l. split; auto. qlra.
Qed.

Lemma eval_in_bound : forall l t v lo, eval l t = Some v ->
  (forall p, In p l -> time p <= t -> lo <= line p t) -> lo <= v.
Proof.
  induction l as [|p l IH]; intros t v lo E H; [discriminate|]. cbn [eval] in E.
  destruct (eval l t) eqn:El.
  - apply (IH t); [congruence|]. intros p' J. apply H. cbn; auto.
  - destruct (nleb (time p) t) eqn:B; [|discriminate]. qb.
    assert (E' : line p t = v) by congruence. rewrite <- E'. apply H; cbn; auto.
Qed.

Lemma zig_values : forall t, beginTime zig <= t -> t <= endTime zig ->
  denotes (samples zig) t (fn zig t) /\ - q 100 <= fn zig t /\ fn zig t <= q 100.
Proof.
  intros t T1 T2. pose proof (fn_eval zig t (simple_wf _ zig_simple) T1) as E.
  split; [apply eval_denotes; auto|].
  change (beginTime zig) with (q 0) in T1. change (endTime zig) with (q 6) in T2.
  assert (G : forall p, In p (samples zig) -> - q 100 <= line p t /\ line p t <= q 100).
  { intros p J. cbn [zig samples] in J. unfold q in *.
    destruct J as [<-|[<-|[<-|[<-|[]]]]]; unfold line; cbn [time value deriv]; split; qlra. }
  split.
  - eapply eval_in_bound; [exact E|]. intros p J _. apply G. auto.
  - assert (K : - q 100 <= - fn zig t); [|qlra].
    clear - E G. revert E G. generalize (samples zig), (fn zig t). induction l as [|p l IH]; intros v E G; [discriminate|].
    cbn [eval] in E. destruct (eval l t) eqn:El.
    + apply IH; [congruence|]. intros p' J. apply G. cbn; auto.
    + destruct (nleb (time p) t); [|discriminate]. assert (E' : line p t = v) by congruence.
      destruct (G p (or_introl eq_refl)). qlra.
Qed.

(** A decreasing first piece that started before the domain: the switch to the
    later maximum is put at the wrong time. *)
Lemma eventually_early_front : exists x z t v w, wf x /\ continuous (samples x) /\ beginTime x <= t /\ t <= endTime x /\
  compute_eventually (q 100) empty_signal x = Ok z /\ denotes (samples z) t v /\
  denotes (samples x) (endTime x) w /\ v < w.
Proof.
  exists (mkSig [mkS (q 0) (q 10) (q (-4)); mkS (q 2) (q 2) (q 1)] (q 1) (q 4)).
  eexists. exists (q 2), (q 2), (q 4).
  split; [|split; [|split; [qc|split; [qc|split; [vm_compute; reflexivity|split; [den|split; [den|qc]]]]]]].
  - split; [|split].
    + cbn [samples ordered]. repeat (split || constructor || qc).
    + qc.
    + do 2 eexists. split; [reflexivity|qc].
  - cbn [samples continuous]. split; [|exact I]. apply Qc_is_canon; vm_compute; reflexivity.
Qed.

(** A receiver that is not empty keeps its samples after the result. *)
Lemma eventually_dirty_receiver : exists self x z p, simple self /\ simple x /\
  compute_eventually (q 100) self x = Ok z /\ endTime z = endTime x /\ In p (samples z) /\ endTime z < time p.
Proof.
  exists zig, (mkSig [mkS (q 0) (q 1) (q 0)] (q 0) (q 2)). do 2 eexists.
  split; [exact zig_simple|]. split.
  { split; [do 2 eexists; split; reflexivity|]. split; [|split].
    - cbn [samples ordered]. repeat (split || constructor || qc).
    - exact I.
    - repeat (constructor || qc). }
  split; [vm_compute; reflexivity|]. split; [vm_compute; reflexivity|].
  split; [cbn [samples]; right; right; right; right; left; reflexivity|]. qc.
Qed.

(** No sample at or after begin + window: the ramp is not seen inside the window. *)
Lemma timed_ev_loses_slope : exists x z t v w, simple x /\ beginTime x <= t /\ t <= endTime x /\
  compute_timed_eventually (q 100) empty_signal x (q 0) (q 3) = Ok z /\ denotes (samples z) t v /\
  denotes (samples x) (t + q 3) w /\ t + q 3 <= endTime x /\ v < w.
Proof.
  exists (mkSig [mkS (q 0) (q 0) (q 1)] (q 0) (q 10)). eexists. exists (q 5), (q 5), (q 8).
  split.
  { split; [do 2 eexists; split; reflexivity|]. split; [|split].
    - cbn [samples ordered]. repeat (split || constructor || qc).
    - exact I.
    - repeat (constructor || qc). }
  split; [qc|]. split; [qc|]. split; [vm_compute; reflexivity|]. split; [den|]. split; [den|]. split; qc.
Qed.

(** A value below -BigM is raised to -BigM. *)
Lemma eventually_saturates : exists x z v w, simple x /\
  compute_eventually (q 100) empty_signal x = Ok z /\ denotes (samples z) (q 0) v /\
  (forall t, beginTime x <= t -> t <= endTime x -> denotes (samples x) t w) /\ w < v.
Proof.
  exists (mkSig [mkS (q 0) (q (-500)) (q 0)] (q 0) (q 2)). eexists. exists (q (-100)), (q (-500)).
  split.
  { split; [do 2 eexists; split; reflexivity|]. split; [|split].
    - cbn [samples ordered]. repeat (split || constructor || qc).
    - exact I.
    - repeat (constructor || qc). }
  split; [vm_compute; reflexivity|]. split; [den|]. split; [|qc].
  intros t T1 T2. exists [], (mkS (q 0) (q (-500)) (q 0)), []. split; [reflexivity|]. split; [exact T1|]. split; [constructor|].
  unfold line. cbn [time value deriv]. change (q 0) with 0. ring.
Qed.
