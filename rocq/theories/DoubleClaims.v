(** Claims about evaluations on doubles. *)
From Coq Require Import List Bool String ZArith QArith Qcanon Lia PrimFloat.
From Verif Require Import Num NumFloat Base Signal Robust Transducer StlSpec TreeProof StlClaims SignalClaims StepSpec StepTree StepClaims Double DoubleProof Lock LockTree.
Import ListNotations.
Local Open Scope Qc_scope.
Local Existing Instance NumF.

(** ** Numbers with few binary digits *)
Section Digits.
Variables (E : env float) (j v : Z).
Hypothesis (J : (0 <= j)%Z).

Lemma digits_nonneg : forall T (f : fml T), (0 <= v)%Z -> (0 <= fst (digits j v f))%Z /\ (0 <= snd (digits j v f))%Z.
Proof.
  intros T f V. induction f; cbn [digits fst snd]; try (split; lia);
    destruct (digits j v f1) as [p1 a1], (digits j v f2) as [p2 a2]; cbn [fst snd] in *; destruct IHf1, IHf2; split; try lia; try nia;
    assert (0 <= 2 ^ (Z.max p1 p2 - p1))%Z by (apply Z.pow_nonneg; lia); assert (0 <= 2 ^ (Z.max p1 p2 - p2))%Z by (apply Z.pow_nonneg; lia); nia.
Qed.
Lemma zero_fixed : (0 <= v)%Z -> grid j v 0%float 0.
Proof. intros V. apply (grid_le j 0); [apply grid_0; auto|auto]. Qed.

Lemma taken_grid : forall f, arithmetic f -> (0 <= v)%Z -> on_binary_values E j v f -> fits j v f ->
  forall q, taken (env_q E) (fml_q f) q -> exists x, grid (fst (digits j v f)) (snd (digits j v f)) x q.
Proof.
  induction f; cbn [arithmetic]; intros A V B F q Q; try contradiction; cbn [on_binary_values fml_q taken] in B, Q.
  - destruct Q as [->|(row & I & N)]; [exists 0%float; apply zero_fixed; auto|]. cbn in I. apply in_map_iff in I as (r & <- & I).
    apply nth_map in N as (x & N & ->). rewrite Forall_forall in B. destruct (B r I x N) as [P G]. exists x. split; auto. split; auto.
  - destruct Q as [->| ->]; [exists 0%float; apply zero_fixed; auto|]. rewrite eff_q. exists (eff E p v0). destruct B as [P G]. split; auto. split; auto.
  - destruct Q as (x & X & ->). destruct (IHf A V B F x X) as (y & Y). cbn [digits]. exists (abs y). apply grid_abs; auto. apply digits_nonneg; auto.
  - destruct A as [A1 A2], B as [B1 B2], F as (F1 & F2 & F3 & F4), Q as (x & y & X & Y & ->).
    destruct (IHf1 A1 V B1 F1 x X) as (x0 & X0), (IHf2 A2 V B2 F2 y Y) as (y0 & Y0).
    destruct (digits_nonneg _ f1 V), (digits_nonneg _ f2 V). cbn [digits] in *.
    destruct (digits j v f1) as [p1 a1], (digits j v f2) as [p2 a2]. cbn [fst snd] in *.
    exists (x0 + y0)%float. apply grid_add; try lia; apply grid_fine; auto; lia.
  - destruct A as [A1 A2], B as [B1 B2], F as (F1 & F2 & F3 & F4), Q as (x & y & X & Y & ->).
    destruct (IHf1 A1 V B1 F1 x X) as (x0 & X0), (IHf2 A2 V B2 F2 y Y) as (y0 & Y0).
    destruct (digits_nonneg _ f1 V), (digits_nonneg _ f2 V). cbn [digits] in *.
    destruct (digits j v f1) as [p1 a1], (digits j v f2) as [p2 a2]. cbn [fst snd] in *.
    exists (x0 - y0)%float. apply grid_sub; try lia; apply grid_fine; auto; lia.
  - destruct A as [A1 A2], B as [B1 B2], F as (F1 & F2 & F3 & F4), Q as (x & y & X & Y & ->).
    destruct (IHf1 A1 V B1 F1 x X) as (x0 & X0), (IHf2 A2 V B2 F2 y Y) as (y0 & Y0).
    destruct (digits_nonneg _ f1 V), (digits_nonneg _ f2 V). cbn [digits] in *.
    destruct (digits j v f1) as [p1 a1], (digits j v f2) as [p2 a2]. cbn [fst snd] in *.
    exists (x0 * y0)%float. apply grid_mul; auto.
Qed.

Lemma grid_representable : forall k b x q, grid k b x q -> representable q.
Proof. intros k b x q H. exists x. apply (grid_den k b). auto. Qed.
Lemma fits_arithmetic : forall f, arithmetic f -> (0 <= v)%Z -> on_binary_values E j v f -> fits j v f -> no_rounding (env_q E) (fml_q f).
Proof.
  induction f; cbn [arithmetic]; intros A V B F; try contradiction; cbn [on_binary_values] in B; cbn [fml_q no_rounding]; auto.
  - destruct A as [A1 A2], B as [B1 B2]. pose proof F as (F1 & F2 & F3). split; [auto|]. split; [auto|]. intros x y X Y.
    destruct (taken_grid (FPlus f1 f2) (conj A1 A2) V (conj B1 B2) F (x + y)) as (z & Z); [cbn [fml_q taken]; eauto|]. eapply grid_representable; exact Z.
  - destruct A as [A1 A2], B as [B1 B2]. pose proof F as (F1 & F2 & F3). split; [auto|]. split; [auto|]. intros x y X Y.
    destruct (taken_grid (FMinus f1 f2) (conj A1 A2) V (conj B1 B2) F (x - y)) as (z & Z); [cbn [fml_q taken]; eauto|]. eapply grid_representable; exact Z.
  - destruct A as [A1 A2], B as [B1 B2]. pose proof F as (F1 & F2 & F3). split; [auto|]. split; [auto|]. intros x y X Y.
    destruct (taken_grid (FMult f1 f2) (conj A1 A2) V (conj B1 B2) F (x * y)) as (z & Z); [cbn [fml_q taken]; eauto|]. eapply grid_representable; exact Z.
Qed.
Lemma fits_logical : forall f, logical f -> (0 <= v)%Z -> on_binary_values E j v f -> fits j v f -> no_rounding (env_q E) (fml_q f).
Proof.
  induction f; cbn [logical]; intros A V B F; try contradiction; cbn [on_binary_values] in B; cbn [fml_q no_rounding];
    try (destruct A as [A1 A2], B as [B1 B2], F as [F1 F2]; split; auto; fail); auto.
  destruct A as [A1 A2], B as [B1 B2]. pose proof F as (F1 & F2 & F3). split; [apply fits_arithmetic; auto|]. split; [apply fits_arithmetic; auto|]. intros x y X Y.
  destruct (taken_grid (FMinus f1 f2) (conj A1 A2) V (conj B1 B2) F (x - y)) as (z & Z); [cbn [fml_q taken]; eauto|]. eapply grid_representable; exact Z.
Qed.
End Digits.

Lemma fits_no_rounding : forall E j v f, (0 <= j)%Z -> (0 <= v)%Z -> logical f -> on_binary_values E j v f -> fits j v f -> no_rounding (env_q E) (fml_q f).
Proof. intros. apply (fits_logical E j v); auto. Qed.

(** ** The robustness of a formula over held signals, on doubles *)
Lemma held_doubles : forall k b w n E t f s e, on_binary_times k b w E f s e -> no_rounding (env_q E) (fml_q f) -> skel t = skel (build f) ->
  trace n (e_data (env_q E)) -> timed (bound_value (env_q E)) n (fml_q f) -> 0 <= qval s -> qval s <= qval e ->
  covers (bound_value (env_q E)) (last_time (e_data (env_q E))) (fml_q f) (qval e) ->
  within_of held (eff (env_q E)) (bound_value (env_q E)) (e_data (env_q E)) (e_M (env_q E)) (fml_q f) ->
  at_samples (bound_value (env_q E)) (e_data (env_q E)) (fml_q f) (qval s) (qval e) ->
  settled held (eff (env_q E)) (bound_value (env_q E)) (e_data (env_q E)) (fml_q f) (qval s) (qval e) ->
  exists v lo up, numbers (evaluate E t s e) = Ok (v, lo, up) /\ finite v /\
    rob_of held (eff (env_q E)) (bound_value (env_q E)) (e_data (env_q E)) (fml_q f) (qval s) (qval v).
Proof.
  intros k b w n E t f s e B X Sk Tr Ti P L C W A St. pose proof (run_lock k b w E t f s e B X Sk) as R.
  destruct (held_claim n (env_q E) (build (fml_q f)) (fml_q f) (qval s) (qval e)) as (v & lo & up & H & V); auto.
  { split; [exact (bt_held _ _ _ _ _ _ _ B)|]. split; [exact (bt_space _ _ _ _ _ _ _ B)|exact Tr]. }
  { reflexivity. }
  rewrite H in R. destruct (numbers (evaluate E t s e)) as [[[v0 lo0] up0]| | | |]; try contradiction. destruct R as ([F D] & _ & _).
  exists v0, lo0, up0. split; [reflexivity|]. split; [exact F|]. rewrite D. exact V.
Qed.
