(** Cases and counterexamples for held signals. *)
From Coq Require Import List String QArith Qcanon Bool.
From Verif Require Import Num Base Signal QcTac Robust Transducer Spec StlSpec SignalClaims SigProof ReadProof TreeProof StlClaims Witness StepSpec StepRead StepTree StepClaims.
Import ListNotations.
Local Open Scope string_scope.
Local Open Scope Qc_scope.

Definition env_p (d : list (list Qc)) : env Qc := mkEnv SPACE PREVIOUS (q 10000) d [].
Notation rob_p d := (rob_of held (eff (env_p d)) (bound_value (env_p d)) d).

Lemma held_in : forall l t v, held l t v -> In v (map snd l).
Proof.
  intros l t v [[l1 t1 v1 l2 -> _ _]|(t0 & l' & -> & _)]; [|left; reflexivity].
  rewrite map_app. apply in_or_app. right. left. reflexivity.
Qed.
Lemma held_within : forall d c m M t v, Forall (fun r => m <= nth c r 0 /\ nth c r 0 <= M) d -> held (column d c) t v -> m <= v /\ v <= M.
Proof.
  intros d c m M t v F H. apply held_in in H. unfold column in H. rewrite map_map in H. apply in_map_iff in H.
  destruct H as (r & <- & I). cbn [snd]. rewrite Forall_forall in F. apply F; auto.
Qed.
Lemma pos_within_p : forall d c M, Forall (fun r => - M <= nth c r 0 /\ nth c r 0 <= M) d ->
  within_of held (eff (env_p d)) (bound_value (env_p d)) d M (pos c).
Proof.
  intros d c M F t v H. cbn [pos rob_of expr_of] in H. destruct H as (a & b & A & -> & ->).
  apply (held_within d c (- M) M) in A; auto. change (eff (env_p d) None (q 0)) with 0. replace (a - 0) with a by ring. auto.
Qed.
(** The value of a comparison with 0. *)
Lemma pos_value : forall d c t v, rob_p d (pos c) t v -> column d c <> [] -> rising (column d c) -> v = hold (column d c) t.
Proof.
  intros d c t v (a & b & A & -> & ->) N R. apply held_hold in A; auto. subst a. change (eff (env_p d) None (q 0)) with 0. ring.
Qed.

(** alw_[0,2] (x > 0 or not ev_[0,2] y > 0) and not (x + y > 7): no sample falls on the ends 2
    and 4 of the windows. *)
Definition steps : list (list Qc) := [[q 0; q 1; q 2]; [q 1; q (-2); q 1]; [q 3; q 4; q (-1)]; [q 5; q 2; q 3]].
Definition under : fml Qc := FAlw (iv 0 2) (FOr (pos 1) (FNot (FEv (iv 0 2) (pos 2)))).
Definition sum7 : fml Qc := FAtom (FPlus (FSig "x" 1) (FSig "y" 2)) GREATERTHAN (FConst None (q 7)).
Definition both : fml Qc := FAnd under (FNot sum7).

Lemma steps_holding : holding 2 (env_p steps).
Proof. split; [reflexivity|]. split; [reflexivity|]. apply trace_check. vm_compute. reflexivity. Qed.
Lemma both_timed : timed (bound_value (env_p steps)) 2 both.
Proof.
  cbn [timed both under sum7 pos expression]. repeat match goal with |- _ /\ _ => split end; first [exact I | qdec | repeat constructor].
Qed.
Lemma both_covers : covers (bound_value (env_p steps)) (last_time steps) both 0.
Proof. cbn [covers both under sum7 pos]. repeat split; qdec. Qed.
Lemma both_within : within_of held (eff (env_p steps)) (bound_value (env_p steps)) steps (q 10000) both.
Proof.
  cbn [within_of both under]. assert (P1 : forall c, c = 1%nat \/ c = 2%nat -> within_of held (eff (env_p steps)) (bound_value (env_p steps)) steps (q 10000) (pos c)).
  { intros c [->| ->]; apply pos_within_p; repeat constructor; qdec. }
  split; [split; apply P1; auto|]. intros t v H. cbn [sum7 rob_of expr_of] in H. destruct H as (a & b & (x & y & X & Y & ->) & -> & ->).
  apply (held_within steps 1 (q (-9)) (q 9)) in X; [|repeat constructor; qdec]. apply (held_within steps 2 (q (-9)) (q 9)) in Y; [|repeat constructor; qdec].
  change (eff (env_p steps) None (q 7)) with (q 7). destruct X, Y.
  assert (q (-10000) <= q (-9) + q (-9) - q 7) by qdec. assert (q 9 + q 9 - q 7 <= q 10000) by qdec.
  change (- q 10000) with (q (-10000)). split; qlra.
Qed.
Lemma both_at_samples : at_samples (bound_value (env_p steps)) steps both 0 0.
Proof. cbn [at_samples both under sum7 pos is_leaf]. auto 6. Qed.
Lemma not_row : forall (l : list Qc) e, forallb (fun t => negb (neqb t e)) l = true -> ~ In e l.
Proof.
  intros l e H I. rewrite forallb_forall in H. specialize (H e I). rewrite (proj2 (neqb_true e e) eq_refl) in H. discriminate H.
Qed.
Lemma under_apart : apart_ends (bound_value (env_p steps)) steps under 0 0.
Proof.
  cbn [apart_ends apart under pos]. split; [|auto]. right. repeat match goal with |- _ /\ _ => split end; apply not_row; vm_compute; reflexivity.
Qed.
Lemma both_settled : settled held (eff (env_p steps)) (bound_value (env_p steps)) steps both 0 0.
Proof.
  cbn [settled both sum7]. split; [|exact I]. pose proof steps_holding as (_ & _ & TR).
  apply (ends_settled (env_p steps)). apply (apart_steady_ends 2 (env_p steps) TR); [|exact under_apart]. exact (proj1 both_timed).
Qed.
Lemma both_numbers : numbers (evaluate (env_p steps) (build both) 0 0) = Ok (q (-1), q (-1), q (-1)).
Proof. vm_compute. reflexivity. Qed.

(** alw_[0,2] (x > 0 and y > 0), both signals change at 2. *)
Definition jump : list (list Qc) := [[q 0; q 2; q 1]; [q 2; q (-3); q 0]].
Definition alw_both : fml Qc := FAlw (iv 0 2) (FAnd (pos 1) (pos 2)).
Lemma jump_holding : holding 2 (env_p jump).
Proof. split; [reflexivity|]. split; [reflexivity|]. apply trace_check. vm_compute. reflexivity. Qed.
Lemma jump_value : forall v, rob_p jump alw_both 0 v -> v <= q (-3).
Proof.
  intros v (g & G & [B _]). specialize (B (q 2) ltac:(qdec) ltac:(qdec)). specialize (G (q 2) ltac:(qdec) ltac:(qdec)).
  destruct G as (a & b & A & B2 & E). pose proof (columns_rise 2 (env_p jump) (proj2 (proj2 jump_holding))) as R.
  apply pos_value in A; [|discriminate|apply R]. apply pos_value in B2; [|discriminate|apply R].
  rewrite E, A, B2 in B. eapply Qcle_trans; [exact B|]. qdec.
Qed.
Lemma jump_numbers : numbers (evaluate (env_p jump) (build alw_both) 0 0) = Ok (q 1, q 1, q 1).
Proof. vm_compute. reflexivity. Qed.

(** alw_[2,6] ev_[0,0] x > 0: the robustness is exact, the bounds are not. *)
Definition dip : list (list Qc) := [[q 1; q (-5)]; [q 5; q 2]; [q 13; q (-5)]].
Definition alw_now : fml Qc := FAlw (iv 2 6) (FEv (iv 0 0) (pos 1)).
Lemma dip_holding : holding 1 (env_p dip).
Proof. split; [reflexivity|]. split; [reflexivity|]. apply trace_check. vm_compute. reflexivity. Qed.
Lemma dip_value : forall v, rob_p dip alw_now 0 v -> v <= q (-5).
Proof.
  intros v (g & G & [B _]). specialize (B (q 2) ltac:(qdec) ltac:(qdec)). specialize (G (q 2) ltac:(qdec) ltac:(qdec)).
  destruct G as (h & H & [B1 B2]). pose proof (columns_rise 1 (env_p dip) (proj2 (proj2 dip_holding))) as R.
  eapply Qcle_trans; [exact B|]. apply B2. intros s S1 S2. pose proof (H s S1 S2) as V.
  apply pos_value in V; [|discriminate|apply R]. rewrite V.
  assert (Es : s = q 2) by (apply Qcle_antisym; [eapply Qcle_trans; [exact S2|]|eapply Qcle_trans; [|exact S1]]; qdec). rewrite Es. qdec.
Qed.
Lemma dip_numbers : numbers (evaluate (env_p dip) (build alw_now) 0 0) = Ok (q (-5), q 2, q 2).
Proof. vm_compute. reflexivity. Qed.

(** alw_[0,4] ev_[3,6] x > 0 from 2, data up to 9 only. *)
Definition short : list (list Qc) := [[q 2; q (-2)]; [q 4; q (-3)]; [q 7; q 4]; [q 9; q (-3)]].
Definition alw_soon : fml Qc := FAlw (iv 0 4) (FEv (iv 3 6) (pos 1)).
Lemma short_holding : holding 1 (env_p short).
Proof. split; [reflexivity|]. split; [reflexivity|]. apply trace_check. vm_compute. reflexivity. Qed.
Lemma short_value : forall v, rob_p short alw_soon (q 2) v -> v <= q (-3).
Proof.
  intros v (g & G & [B _]). specialize (B (q 6) ltac:(qdec) ltac:(qdec)). specialize (G (q 6) ltac:(qdec) ltac:(qdec)).
  destruct G as (h & H & [B1 B2]). pose proof (columns_rise 1 (env_p short) (proj2 (proj2 short_holding))) as R.
  eapply Qcle_trans; [exact B|]. apply B2. intros s S1 S2. pose proof (H s S1 S2) as V.
  apply pos_value in V; [|discriminate|apply R]. rewrite V.
  rewrite (hold_between (column short 1) (q 9) s); [qdec|apply R|eapply Qcle_trans; [|exact S1]; qdec|].
  intros t I. left. cbn [short column map fst row_time nth In] in I. repeat destruct I as [<-|I]; try qdec. destruct I.
Qed.
Lemma short_numbers : numbers (evaluate (env_p short) (build alw_soon) (q 2) (q 2)) = Ok (q 4, q 4, q 4).
Proof. vm_compute. reflexivity. Qed.

(** alw_[0,4] ev_[2,4] x + 0 > 0: the sum is evaluated up to 8, where there is no sample. *)
Definition sparse : list (list Qc) := [[q 1; q 3]; [q 5; q 2]; [q 11; q (-2)]].
Definition plus0 : fml Qc := FAtom (FPlus (FSig "x" 1) (FConst None (q 0))) GREATERTHAN (FConst None (q 0)).
Definition alw_plus : fml Qc := FAlw (iv 0 4) (FEv (iv 2 4) plus0).
Lemma sparse_holding : holding 1 (env_p sparse).
Proof. split; [reflexivity|]. split; [reflexivity|]. apply trace_check. vm_compute. reflexivity. Qed.
Lemma sparse_value : forall v, rob_p sparse alw_plus 0 v -> v <= q 2.
Proof.
  intros v (g & G & [B _]). specialize (B (q 4) ltac:(qdec) ltac:(qdec)). specialize (G (q 4) ltac:(qdec) ltac:(qdec)).
  destruct G as (h & H & [B1 B2]). pose proof (columns_rise 1 (env_p sparse) (proj2 (proj2 sparse_holding))) as R.
  eapply Qcle_trans; [exact B|]. apply B2. intros s S1 S2. pose proof (H s S1 S2) as (a & b & (x & y & X & -> & ->) & -> & ->).
  apply held_hold in X; [|discriminate|apply R]. subst x. change (eff (env_p sparse) None (q 0)) with 0.
  replace (hold (column sparse 1) s + 0 - 0) with (hold (column sparse 1) s) by ring.
  rewrite (hold_between (column sparse 1) (q 5) s); [qdec|apply R|eapply Qcle_trans; [|exact S1]; qdec|].
  intros t I. cbn [sparse column map fst row_time nth In] in I. destruct I as [<-|[<-|[<-|[]]]]; [left; qdec|left; qdec|right].
  eapply Qcle_lt_trans; [exact S2|]. qdec.
Qed.
Lemma sparse_numbers : numbers (evaluate (env_p sparse) (build alw_plus) 0 0) = Ok (q 3, q (-10000), q 3).
Proof. vm_compute. reflexivity. Qed.
