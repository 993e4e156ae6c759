(** Cases and a counterexample for until over held signals. *)
From Coq Require Import List String QArith Qcanon Bool.
From Verif Require Import Num Base Signal QcTac Robust Transducer Spec StlSpec SignalClaims SigProof ReadProof TreeProof StlClaims Witness UntilProof StepSpec StepRead StepTree StepClaims StepWitness StepUntilSpec StepUntilTree.
Import ListNotations.
Local Open Scope string_scope.
Local Open Scope Qc_scope.

(** y > 0 => (x > 0 or y > 0) until_[1,2] ev_[0,2] x > 0. *)
Definition waits : fml Qc := FUntil (FOr (pos 1) (pos 2)) (iv 1 2) (FEv (iv 0 2) (pos 1)).
Definition answer : fml Qc := FImp (pos 2) waits.

Lemma answer_timed : utimed (bound_value (env_p steps)) 2 answer.
Proof.
  cbn [utimed timed answer waits pos expression]. repeat match goal with |- _ /\ _ => split end; first [exact I | qdec | repeat constructor].
Qed.
Lemma answer_covers : covers (bound_value (env_p steps)) (last_time steps) answer 0.
Proof. cbn [covers answer waits pos]. repeat split; qdec. Qed.
Lemma answer_within : within_of held (eff (env_p steps)) (bound_value (env_p steps)) steps (q 10000) answer.
Proof.
  cbn [within_of answer waits]. assert (P1 : forall c, c = 1%nat \/ c = 2%nat -> within_of held (eff (env_p steps)) (bound_value (env_p steps)) steps (q 10000) (pos c)).
  { intros c [->| ->]; apply pos_within_p; repeat constructor; qdec. }
  repeat match goal with |- _ /\ _ => split end; apply P1; auto.
Qed.
Lemma answer_at_samples : uat_samples (bound_value (env_p steps)) steps answer 0 0.
Proof. cbn [uat_samples at_samples answer waits pos is_leaf]. auto 8. Qed.
Lemma answer_apart : uapart (bound_value (env_p steps)) steps answer 0 0.
Proof.
  cbn [uapart apart_ends apart answer waits pos]. split; [exact I|].
  split; [split; [right|auto]|split; [exact I|intros _]]; repeat match goal with |- _ /\ _ => split end; apply not_row; vm_compute; reflexivity.
Qed.
Lemma answer_settled : usettled held (eff (env_p steps)) (bound_value (env_p steps)) steps answer 0 0.
Proof. pose proof steps_holding as (_ & _ & TR). exact (uapart_settled 2 (env_p steps) answer 0 0 TR answer_timed answer_apart). Qed.
Lemma answer_numbers : numbers (evaluate (env_p steps) (build answer) 0 0) = Ok (q 1, q 1, q 1).
Proof. vm_compute. reflexivity. Qed.

(** x > 0 until_[0,2] y > 0, where y becomes positive at 2 only. *)
Definition lastly : list (list Qc) := [[q 0; q 1; q (-1)]; [q 2; q 1; q 1]].
Definition at_last : fml Qc := FUntil (pos 1) (iv 0 2) (pos 2).
Lemma lastly_holding : holding 2 (env_p lastly).
Proof. split; [reflexivity|]. split; [reflexivity|]. apply trace_check. vm_compute. reflexivity. Qed.
Lemma at_last_value : forall v, rob_p lastly at_last 0 v -> q 1 <= v.
Proof.
  intros v (gl & gr & h & L & R & H & [B _]). pose proof (columns_rise 2 (env_p lastly) (proj2 (proj2 lastly_holding))) as C.
  specialize (B (q 2) ltac:(qdec) ltac:(qdec)). specialize (R (q 2) ltac:(qdec) ltac:(qdec)). specialize (H (q 2) ltac:(qdec) ltac:(qdec)).
  apply pos_value in R; [|discriminate|apply C]. eapply Qcle_trans; [|exact B]. apply le_min. split; [rewrite R; qdec|].
  destruct H as [_ H]. apply H. intros u U1 U2. specialize (L u U1 ltac:(eapply Qcle_trans; [exact U2|]; qdec)).
  destruct L as (a & b & A & -> & ->). apply (held_within lastly 1 (q 1) (q 1)) in A; [|repeat constructor; qdec].
  change (eff (env_p lastly) None (q 0)) with 0. replace (a - 0) with a by ring. apply A.
Qed.
Lemma at_last_numbers : numbers (evaluate (env_p lastly) (build at_last) 0 0) = Ok (q (-1), q (-1), q (-1)).
Proof. vm_compute. reflexivity. Qed.
