(** Boolean abstraction and time robustness: cases and counterexamples. *)
From Coq Require Import List QArith Qcanon.
From Verif Require Import Num Base Signal QcTac Spec Robust Repr SignalClaims BooleanProof.
Import ListNotations.
Local Open Scope Qc_scope.

(** 1 - t until 2, up again until 3, then constant, on [0,5]: negative between 1 and 2.5. *)
Definition saw : signal Qc :=
  mkSig [mkS (q 0) (q 1) (q (-1)); mkS (q 2) (q (-1)) (q 2); mkS (q 3) (q 1) (q 0)] (q 0) (q 5).

Lemma saw_sampled : sampled saw.
Proof.
  split; [do 2 eexists; split; reflexivity|]. split; [qc|]. split.
  - cbn [saw samples increasing]. repeat (split || constructor || qc).
  - repeat (constructor || qc).
Qed.
Lemma saw_no_zero_rise : no_zero_rise saw.
Proof. intros p [<-|[<-|[<-|[]]]] [V _]; cbn [value] in V; discriminate. Qed.

Lemma saw_boolean : exists z, compute_boolean saw = Ok z /\ denotes (samples z) (q 2) 0 /\ denotes (samples z) (q 3) 1.
Proof.
  eexists. split; [vm_compute; reflexivity|]. split; apply eval_denotes; vm_compute; reflexivity.
Qed.
Lemma saw_left : exists z, compute_left_time_rob saw = Ok z /\ denotes (samples z) (q 2) (- (neps + q 1)) /\
  denotes (samples z) (q 3) (neps + Q2Qc (1 # 2)).
Proof.
  eexists. split; [vm_compute; reflexivity|]. split; apply eval_denotes; vm_compute; reflexivity.
Qed.

(** t on [0,4]. *)
Definition ramp : signal Qc := mkSig [mkS (q 0) (q 0) (q 1)] (q 0) (q 4).
Lemma ramp_sampled : sampled ramp.
Proof.
  split; [do 2 eexists; split; reflexivity|]. split; [qc|]. split.
  - cbn [ramp samples increasing]. repeat (split || constructor || qc).
  - repeat (constructor || qc).
Qed.
(** t - 1 on [0,4]. *)
Definition climb : signal Qc := mkSig [mkS (q 0) (q (-1)) (q 1)] (q 0) (q 4).
Lemma climb_sampled : sampled climb.
Proof.
  split; [do 2 eexists; split; reflexivity|]. split; [qc|]. split.
  - cbn [climb samples increasing]. repeat (split || constructor || qc).
  - repeat (constructor || qc).
Qed.

Lemma rise_unseen : exists y z t v, sampled y /\ compute_boolean y = Ok z /\ t < endTime y /\
  denotes (samples y) t v /\ 0 < v /\ denotes (samples z) t 0.
Proof.
  exists ramp. eexists. exists (q 1), (q 1). split; [exact ramp_sampled|]. split; [vm_compute; reflexivity|].
  split; [qc|]. split; [apply eval_denotes; vm_compute; reflexivity|]. split; [qc|].
  apply eval_denotes; vm_compute; reflexivity.
Qed.
Lemma zero_seen : exists y z t, sampled y /\ no_zero_rise y /\ compute_boolean y = Ok z /\ t < endTime y /\
  denotes (samples y) t 0 /\ denotes (samples z) t 1.
Proof.
  exists climb. eexists. exists (q 1). split; [exact climb_sampled|].
  split; [intros p [<-|[]] [V _]; cbn [value] in V; discriminate|]. split; [vm_compute; reflexivity|].
  split; [qc|]. split; apply eval_denotes; vm_compute; reflexivity.
Qed.
Lemma point_lost : exists y z, simple y /\ denotes (samples y) (beginTime y) (q 1) /\ compute_boolean y = Ok z /\ samples z = nil /\
  compute_left_time_rob y = Ok z.
Proof.
  exists (mkSig [mkS (q 0) (q 1) (q 0)] (q 0) (q 0)). eexists.
  split. { split; [do 2 eexists; split; reflexivity|]. split; [|split]; [cbn [samples ordered]|cbn [samples continuous]|]; repeat (split || constructor || qc). }
  split; [apply eval_denotes; vm_compute; reflexivity|]. split; [vm_compute; reflexivity|]. split; vm_compute; reflexivity.
Qed.
Lemma left_rise_unseen : exists y z t v w, sampled y /\ compute_left_time_rob y = Ok z /\ t < endTime y /\
  denotes (samples y) t v /\ 0 < v /\ denotes (samples z) t w /\ w < 0.
Proof.
  exists ramp. eexists. exists (q 1), (q 1). eexists. split; [exact ramp_sampled|]. split; [vm_compute; reflexivity|].
  split; [qc|]. split; [apply eval_denotes; vm_compute; reflexivity|]. split; [qc|].
  split; [apply eval_denotes; vm_compute; reflexivity|]. qc.
Qed.
