(** Data beyond the horizon, stated for any object that stands for a formula. *)
From Coq Require Import List String QArith Qcanon.
From Verif Require Import Num Base Signal QcTac Spec Robust Transducer StlSpec TreeProof StlClaims SignalClaims Witness SafeTree BeyondProof.
Import ListNotations.
Local Open Scope string_scope.
Local Open Scope Qc_scope.

(** The number or failure of a computation, without the object it leaves. *)
Definition only_value (r : res (Qc * tree Qc)) : res Qc := '(v, _) <- r ;; Ok v.

Lemma same_value : forall E r r', same E r r' -> only_value r = only_value r'.
Proof.
  intros E r r' H. destruct r as [[v t]| | | |], r' as [[v' t']| | | |]; cbn [same] in H; try contradiction; try reflexivity.
  destruct H as [-> _]. reflexivity.
Qed.

Lemma robustness_beyond : forall E P R R' f t s e, stands_for t f -> P <> [] ->
  Forall (fun o => e + snd (snd o) < last_time P) (offsets (bound_value E) f) ->
  only_value (compute_rob (with_data E (P ++ R)) (prepare (with_data E (P ++ R)) t s e)) =
  only_value (compute_rob (with_data E (P ++ R')) (prepare (with_data E (P ++ R')) t s e)).
Proof.
  intros E P R R' f t s e Sk N F.
  rewrite (same_value _ _ _ (compute_rob_sim (with_data E (P ++ R)) _ _ (prepare_sim_skel (with_data E (P ++ R)) t (build f) s e Sk))).
  rewrite (same_value _ _ _ (compute_rob_sim (with_data E (P ++ R')) _ _ (prepare_sim_skel (with_data E (P ++ R')) t (build f) s e Sk))).
  rewrite (formula_pass E P R R'); [reflexivity|]. eapply Forall_impl; [|exact F]. intros o H. apply last_known; auto.
Qed.

Lemma bounds_beyond : forall w E P R R' f t s e, e_sem E = SPACE -> trace w (P ++ R) -> trace w (P ++ R') ->
  stands_for t f -> windowed (bound_value E) w f -> P <> [] -> 0 <= e ->
  Forall (fun o => e + snd (snd o) < last_time P) (offsets (bound_value E) f) ->
  numbers (evaluate (with_data E (P ++ R)) t s e) = numbers (evaluate (with_data E (P ++ R')) t s e).
Proof.
  intros w E P R R' f t s e SP TR TR' Sk X N H F. apply (beyond_same E w P R R' SP TR TR' f); auto.
  eapply Forall_impl; [|exact F]. intros o L. apply last_known; auto.
Qed.

(** alw_[0,1] ev_[0,2] abs(x) > y and x > 0 until_[0,2] y > 0 *)
Definition nested : fml Qc :=
  FAnd (FAlw (iv 0 1) (FEv (iv 0 2) (FAtom (FAbs (FSig "x" 1)) GREATERTHAN (FSig "y" 2)))) (FUntil (pos 1) (iv 0 2) (pos 2)).
Definition head : list (list Qc) := [[q 0; q 1; q 1]; [q 1; q 3; q 1]; [q 2; q 4; q 2]; [q 4; q 3; q 1]].

Lemma nested_case : exists P R R', R <> R' /\ trace 2 (P ++ R) /\ trace 2 (P ++ R') /\
  windowed (bound_value (env_of P)) 2 nested /\
  Forall (fun o => q 0 + snd (snd o) < last_time P) (offsets (bound_value (env_of P)) nested) /\
  numbers (evaluate (with_data (env_of P) (P ++ R)) (build nested) 0 0) = Ok (q 1, q 1, q 1).
Proof.
  exists head, [[q 5; q 1; q 2]], [[q 6; q (-3); q 2]; [q 7; q 1; q 1]].
  split; [discriminate|]. split; [apply trace_check; vm_compute; reflexivity|]. split; [apply trace_check; vm_compute; reflexivity|].
  split; [cbn; repeat split; auto; discriminate|]. split.
  - apply Forall_forall. intros o I. apply nltb_true.
    assert (A : forallb (fun o => nltb (q 0 + snd (snd o)) (last_time head)) (offsets (bound_value (env_of head)) nested) = true) by (vm_compute; reflexivity).
    rewrite forallb_forall in A. auto.
  - vm_compute. reflexivity.
Qed.

(** alw_[0,1] x > 0 *)
Lemma next_sample : exists P R R' f, trace 1 (P ++ R) /\ trace 1 (P ++ R') /\ windowed (bound_value (env_of P)) 1 f /\
  Forall (fun r => Forall (fun o => q 0 + snd (snd o) < row_time r) (offsets (bound_value (env_of P)) f)) (R ++ R') /\
  numbers (evaluate (with_data (env_of P) (P ++ R)) (build f) 0 0) <> numbers (evaluate (with_data (env_of P) (P ++ R')) (build f) 0 0).
Proof.
  exists [[q 0; q 1]], [[q 2; q 3]], [[q 2; q (-3)]], (FAlw (iv 0 1) (pos 1)).
  split; [apply trace_check; vm_compute; reflexivity|]. split; [apply trace_check; vm_compute; reflexivity|].
  split; [cbn; repeat split; auto; discriminate|]. split.
  - repeat constructor; apply nltb_true; vm_compute; reflexivity.
  - vm_compute. discriminate.
Qed.
