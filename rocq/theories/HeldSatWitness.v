(** Cases and counterexamples for verdicts over held signals. *)
From Coq Require Import List String QArith Qcanon Bool.
From Verif Require Import Num Base Signal QcTac Robust Transducer Spec StlSpec SatSpec SignalClaims SigProof ReadProof TreeProof StlClaims Witness StepSpec StepRead StepTree StepClaims StepWitness StepUntilSpec StepUntilTree StepUntilWitness HeldSatSpec HeldSat.
Import ListNotations.
Local Open Scope string_scope.
Local Open Scope Qc_scope.

Definition steps_moved : list (list Qc) := map (fun r => match r with t :: l => t :: map (fun x => x - Q2Qc (1 # 2)) l | [] => [] end) steps.
Lemma steps_near : near (Q2Qc (1 # 2)) steps steps_moved.
Proof.
  unfold near, steps_moved, steps. cbn [map app].
  repeat constructor; try reflexivity; do 3 (destruct c as [|c]; [first [exfalso; inversion H; fail|vm_compute; discriminate]|]); destruct c; vm_compute; discriminate.
Qed.
Lemma answer_linear : linear_atoms 2 answer.
Proof.
  cbn [linear_atoms answer waits pos comparison]. repeat match goal with |- _ /\ _ => split end; first [exact I | repeat constructor].
Qed.
Lemma answer_gain : gain (eff (env_p steps)) answer * Q2Qc (1 # 2) < q 1.
Proof. vm_compute. reflexivity. Qed.

(** alw_[0,2] (x > 0 and y > 0) gets 1, 1, 1 and x is -3 at 2. *)
Lemma jump_fails : ~ holds_of held false (eff (env_p jump)) (bound_value (env_p jump)) jump alw_both 0.
Proof.
  intros H. destruct (H (q 2) ltac:(qdec) ltac:(qdec)) as [(a & b & A & -> & L) _].
  pose proof (columns_rise 2 (env_p jump) (proj2 (proj2 jump_holding))) as R.
  apply held_hold in A; [|discriminate|apply R]. subst a. vm_compute in L. discriminate L.
Qed.
(** x > 0 until_[0,2] y > 0 gets -1, -1, -1 and holds. *)
Lemma at_last_holds : holds_of held false (eff (env_p lastly)) (bound_value (env_p lastly)) lastly at_last 0.
Proof.
  pose proof (columns_rise 2 (env_p lastly) (proj2 (proj2 lastly_holding))) as R.
  exists (q 2). split; [qdec|]. split; [qdec|]. split.
  - exists (hold (column lastly 2) (q 2)), (q 0). split; [apply hold_held; [discriminate|apply R]|]. split; [reflexivity|]. vm_compute. reflexivity.
  - intros u U1 U2. exists (hold (column lastly 1) u), (q 0). pose proof (hold_held (column lastly 1) u ltac:(discriminate) (R 1%nat)) as H.
    split; [exact H|]. split; [reflexivity|]. apply (held_within lastly 1 (q 1) (q 1)) in H; [|repeat constructor; qdec].
    eapply Qclt_le_trans; [|apply H]. qdec.
Qed.
