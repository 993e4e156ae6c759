(** Cases and counterexamples for evaluations on doubles. *)
From Coq Require Import List Bool String ZArith QArith Qcanon Lia PrimFloat.
From Verif Require Import Num NumFloat Base Signal QcTac Robust Transducer Spec StlSpec TreeProof StlClaims SignalClaims Witness StepSpec StepRead StepTree StepClaims StepWitness Double DoubleProof Lock LockTree DoubleClaims.
Import ListNotations.
Local Open Scope string_scope.
Local Open Scope Qc_scope.
Local Existing Instance NumF.

Definition ivf (a b : float) : interval float := mkI (mkB a None) (mkB b None).
Definition above (c : nat) (a : float) : fml float := FAtom (FSig "x" c) GREATERTHAN (FConst None a).
Definition env_d (i : interpol) (d : list (list float)) : env float := mkEnv SPACE i 100%float d [].

(** alw_[0.4,0.9] alw_[0.7,1.1] (x > 0), signals interpolated. *)
Definition tenths : list (list float) :=
  [[0; -0.3; -1.2]; [0.9; -1.7; -0.1]; [1.3; -1.5; -1.1]; [1.9; 1.6; 0.5]; [2.2; 0.2; 1.7]; [3; -1.3; -0.8]]%float.
Definition alw_alw : fml float := FAlw (ivf 0.4 0.9) (FAlw (ivf 0.7 1.1) (above 2 0)).
Lemma tenths_doubles : exists v, numbers (evaluate (env_d LINEAR tenths) (build alw_alw) 0.8%float 0.8%float) = Ok (v, v, v) /\ PrimFloat.ltb 0.5 v = true.
Proof. eexists. split; [vm_compute; reflexivity|reflexivity]. Qed.
Lemma tenths_usual : usual 2 (env_q (env_d LINEAR tenths)).
Proof. split; [reflexivity|]. split; [reflexivity|]. apply trace_check. vm_compute. reflexivity. Qed.
Lemma tenths_exact : exists v, numbers (evaluate (env_q (env_d LINEAR tenths)) (build (fml_q alw_alw)) (qval 0.8) (qval 0.8)) = Ok (v, v, v) /\ v < - Q2Qc (17 # 100).
Proof. eexists. split; [vm_compute; reflexivity|]. vm_compute. reflexivity. Qed.

(** ev_[0.5,0.7] alw_[0.3,0.3] (x < 0.3), signals interpolated. *)
Definition few : list (list float) := [[0; -1.4]; [0.7; 1.5]; [1.1; 1.8]; [1.6; -1.4]]%float.
Definition ev_alw : fml float := FEv (ivf 0.5 0.7) (FAlw (ivf 0.3 0.3) (FAtom (FSig "x" 1) LESSTHAN (FConst None 0.3%float))).
Lemma few_doubles : exists v, numbers (evaluate (env_d LINEAR few) (build ev_alw) 0.4%float 0.4%float) = Ok (v, v, v) /\ PrimFloat.ltb v (-0.8) = true.
Proof. eexists. split; [vm_compute; reflexivity|reflexivity]. Qed.
Lemma few_usual : usual 1 (env_q (env_d LINEAR few)).
Proof. split; [reflexivity|]. split; [reflexivity|]. apply trace_check. vm_compute. reflexivity. Qed.
Lemma few_exact : exists v, numbers (evaluate (env_q (env_d LINEAR few)) (build (fml_q ev_alw)) (qval 0.4) (qval 0.4)) = Ok (v, v, v) /\ Q2Qc (4 # 10) < v.
Proof. eexists. split; [vm_compute; reflexivity|]. vm_compute. reflexivity. Qed.
Notation rob_d E f := (rob (eff (env_q E)) (bound_value (env_q E)) (e_data (env_q E)) (fml_q f)).
Lemma few_holds : exists v, rob_d (env_d LINEAR few) ev_alw (qval 0.4) v /\ Q2Qc (4 # 10) < v.
Proof.
  destruct few_exact as (v & N & L). destruct (numbers_ok _ _ _ _ _ _ _ N) as (t1 & _ & _ & R & _). exists v. split; [|exact L].
  destruct (exact_rob 1 (env_q (env_d LINEAR few)) few_usual (build (fml_q ev_alw)) (fml_q ev_alw) (qval 0.4) (qval 0.4)) as (v' & t' & R' & V).
  - reflexivity.
  - cbn [afrag fml_q ev_alw expression affine]. repeat match goal with |- _ /\ _ => split end; first [exact I | qdec | repeat constructor].
  - qdec.
  - qdec.
  - cbn [covers fml_q ev_alw]. repeat match goal with |- _ /\ _ => split end; qdec.
  - cbn [within fml_q ev_alw]. intros t u H. cbn [rob expr] in H. destruct H as (a & b & A & -> & ->).
    destruct few_usual as (_ & _ & _ & RI & _).
    apply (column_within _ _ (q (-2)) (q 2)) in A; [|exact RI|repeat constructor; qdec].
    set (c := eff _ _ _). assert (C : 0 <= c /\ c <= 1) by (split; qdec). destruct A, C.
    assert (q 2 + 1 <= e_M (env_q (env_d LINEAR few))) by qdec.
    assert (- e_M (env_q (env_d LINEAR few)) <= 0 - q 2) by qdec.
    assert (EE : q (-2) = - q 2) by (apply Qc_is_canon; vm_compute; reflexivity). rewrite EE in *.
    split; qlra.
  - cbn [StlSpec.regular fml_q ev_alw]. split; [|split; [|left; split; exact I]].
    + intros _ C. exfalso. revert C. vm_compute. discriminate.
    + intros C. exfalso. revert C. vm_compute. discriminate.
  - rewrite R in R'. injection R' as -> _. exact V.
Qed.

(** not ev_[0.2,0.6] (x > -0.1), signals held. *)
Definition six : list (list float) := [[0; 0.2]; [0.4; 0.2]; [0.9; -1.7]; [1.6; 0.3]; [1.7; -1.1]; [2.5; 0.3]]%float.
Definition not_ev : fml float := FNot (FEv (ivf 0.2 0.6) (above 1 (-0.1))).
Lemma six_doubles : exists v, numbers (evaluate (env_d PREVIOUS six) (build not_ev) 0.7%float 0.7%float) = Ok (v, v, v) /\ PrimFloat.ltb 1.5 v = true.
Proof. eexists. split; [vm_compute; reflexivity|reflexivity]. Qed.
Lemma six_holding : holding 1 (env_q (env_d PREVIOUS six)).
Proof. split; [reflexivity|]. split; [reflexivity|]. apply trace_check. vm_compute. reflexivity. Qed.
Lemma six_exact : exists v, numbers (evaluate (env_q (env_d PREVIOUS six)) (build (fml_q not_ev)) (qval 0.7) (qval 0.7)) = Ok (v, v, v) /\ v < - Q2Qc (2 # 10).
Proof. eexists. split; [vm_compute; reflexivity|]. vm_compute. reflexivity. Qed.
Notation held_d E f := (rob_of held (eff (env_q E)) (bound_value (env_q E)) (e_data (env_q E)) (fml_q f)).
Lemma six_violated : exists v, held_d (env_d PREVIOUS six) not_ev (qval 0.7) v /\ v < - Q2Qc (2 # 10).
Proof.
  destruct six_exact as (v & N & L). exists v. split; [|exact L].
  destruct (held_claim 1 (env_q (env_d PREVIOUS six)) (build (fml_q not_ev)) (fml_q not_ev) (qval 0.7) (qval 0.7)) as (v' & lo & up & R & V).
  - exact six_holding.
  - reflexivity.
  - cbn [timed fml_q not_ev above expression]. repeat match goal with |- _ /\ _ => split end; first [exact I | qdec | repeat constructor].
  - qdec.
  - qdec.
  - cbn [covers fml_q not_ev above]. repeat match goal with |- _ /\ _ => split end; qdec.
  - cbn [within_of fml_q not_ev above]. intros t u H. cbn [rob_of expr_of] in H. destruct H as (a & b & A & -> & ->).
    apply (held_within _ _ (q (-2)) (q 2)) in A; [|repeat constructor; qdec].
    set (c := eff _ _ _). assert (C : - (1) <= c /\ c <= 0) by (split; qdec). destruct A, C.
    assert (q 2 + 1 <= e_M (env_q (env_d PREVIOUS six))) by qdec.
    assert (- e_M (env_q (env_d PREVIOUS six)) <= 0 - q 2) by qdec.
    assert (EE : q (-2) = - q 2) by (apply Qc_is_canon; vm_compute; reflexivity). rewrite EE in *.
    split; qlra.
  - cbn [at_samples fml_q not_ev above is_leaf]. auto.
  - cbn [StepSpec.settled StepSpec.steady_ends fml_q not_ev above]. exact I.
  - rewrite N in R. injection R as -> _ _. exact V.
Qed.

(** ** Binary times *)
Definition fixed_b (k b : Z) (x : float) : bool :=
  let q := (this (qval x) * inject_Z (2 ^ k))%Q in
  match FloatOps.Prim2SF x with SpecFloat.S754_zero _ | SpecFloat.S754_finite _ _ _ => true | _ => false end
  && (Z.abs (Qnum q) <=? b * Zpos (Qden q))%Z && (Z.rem (Qnum q) (Zpos (Qden q)) =? 0)%Z && (0 <=? k)%Z.
Lemma fixed_check : forall k b x, fixed_b k b x = true -> fixed k b x.
Proof.
  intros k b x H. unfold fixed_b in H. apply andb_prop in H as [H K]. apply andb_prop in H as [H D]. apply andb_prop in H as [F B].
  apply Z.leb_le in K, B. apply Z.eqb_eq in D. split; [unfold finite; destruct (FloatOps.Prim2SF x); auto; discriminate|].
  set (y := qval x) in *. clearbody y. set (q := (this y * inject_Z (2 ^ k))%Q) in *.
  exists (Z.quot (Qnum q) (Zpos (Qden q))). pose proof (Z.quot_rem' (Qnum q) (Zpos (Qden q))) as E. rewrite D, Z.add_0_r in E.
  set (m := Z.quot (Qnum q) (Zpos (Qden q))) in *. split.
  - rewrite E, Z.abs_mul in B. cbn [Z.abs] in B. nia.
  - apply Qc_is_canon. cbn [this Q2Qc]. apply Qeq_sym. eapply Qeq_trans; [apply Qred_correct|].
    assert (P : (0 < 2 ^ k)%Z) by (apply Z.pow_pos_nonneg; lia).
    assert (Q1 : (q == inject_Z m)%Q). { unfold Qeq. cbn [Qnum Qden inject_Z]. rewrite E. ring. }
    assert (Q2 : (this y * inject_Z (2 ^ k) == inject_Z m)%Q) by exact Q1.
    assert (Q3 : (m # Z.to_pos (2 ^ k) == inject_Z m / inject_Z (2 ^ k))%Q).
    { unfold Qdiv, Qinv, Qmult, Qeq, inject_Z. cbn. destruct (2 ^ k)%Z eqn:EK; try lia. cbn. lia. }
    eapply Qeq_trans; [exact Q3|]. unfold Qdiv. rewrite <- Q2. field. intros C. unfold Qeq in C. cbn in C. lia.
Qed.
Definition finite_b (x : float) : bool := match FloatOps.Prim2SF x with SpecFloat.S754_zero _ | SpecFloat.S754_finite _ _ _ => true | _ => false end.
Lemma finite_check : forall x, finite_b x = true -> finite x.
Proof. intros x H. unfold finite_b in H. unfold finite. destruct (FloatOps.Prim2SF x); auto; discriminate. Qed.
Definition rows_b (k b : Z) (d : list (list float)) : bool :=
  forallb (fun row => forallb finite_b row && match row with [] => true | t :: _ => fixed_b k b t end) d.
Lemma rows_check : forall k b d, rows_b k b d = true -> Forall (fun row => Forall finite row /\ forall t, nth_error row 0 = Some t -> fixed k b t) d.
Proof.
  intros k b d H. apply Forall_forall. intros row I. unfold rows_b in H. rewrite forallb_forall in H. apply H in I. apply andb_prop in I as [A B]. split.
  - apply Forall_forall. intros x X. rewrite forallb_forall in A. apply finite_check. auto.
  - intros t N. destruct row as [|t0 row]; [discriminate|]. injection N as ->. apply fixed_check. auto.
Qed.
Definition column_b (j v : Z) (c : nat) (d : list (list float)) : bool :=
  forallb (fun row => match nth_error row c with Some x => fixed_b j v x | None => true end) d.
Lemma column_check : forall j v c d, column_b j v c d = true -> Forall (fun row => forall x, nth_error row c = Some x -> fixed j v x) d.
Proof.
  intros j v c d H. apply Forall_forall. intros row I x X. unfold column_b in H. rewrite forallb_forall in H. apply H in I. rewrite X in I. apply fixed_check. auto.
Qed.

(** alw_[0,0.5] (x > 0 or not ev_[0,0.5] y > 0) and not (|x| + 2*y > 7.5), samples at
    multiples of 1/4, values with two binary digits. *)
Definition quarters : list (list float) := [[0; 1.5; 2]; [0.25; -2; 1.25]; [0.75; 4.25; -1]; [1.25; 2; 3]]%float.
Definition under_d : fml float := FAlw (ivf 0 0.5) (FOr (above 1 0) (FNot (FEv (ivf 0 0.5) (above 2 0)))).
Definition sum_d : fml float := FAtom (FPlus (FAbs (FSig "x" 1)) (FMult (FConst None 2%float) (FSig "y" 2))) GREATERTHAN (FConst None 7.5%float).
Definition both_d : fml float := FAnd under_d (FNot sum_d).
Notation Eq4 := (env_d PREVIOUS quarters).
Lemma quarters_binary : on_binary_times 2 8 2 Eq4 both_d 0 0.
Proof.
  split; try reflexivity; try (split; [|]; lia); try (apply finite_check; reflexivity); try (apply fixed_check; vm_compute; reflexivity); try lia.
  - apply rows_check. vm_compute. reflexivity.
  - cbn [plain_numbers both_d under_d sum_d above]. repeat match goal with |- _ /\ _ => split end;
      first [exact I | apply fixed_check; vm_compute; reflexivity | apply finite_check; vm_compute; reflexivity].
  - cbn [logical both_d under_d sum_d above arithmetic]. repeat split.
Qed.
Lemma quarters_values : on_binary_values Eq4 2 30 both_d /\ fits 2 30 both_d.
Proof.
  split.
  - cbn [on_binary_values both_d under_d sum_d above]. repeat match goal with |- _ /\ _ => split end;
      first [apply fixed_check; vm_compute; reflexivity | apply column_check; vm_compute; reflexivity].
  - cbn [fits both_d under_d sum_d above]. repeat match goal with |- _ /\ _ => split end; first [exact I | vm_compute; discriminate | vm_compute; reflexivity].
Qed.
Lemma quarters_exact : no_rounding (env_q Eq4) (fml_q both_d).
Proof. destruct quarters_values as [A B]. apply (fits_no_rounding Eq4 2 30); auto; try lia. apply (bt_formula _ _ _ _ _ _ _ quarters_binary). Qed.
Lemma quarters_numbers : numbers (evaluate Eq4 (build both_d) 0%float 0%float) = Ok (-1.25, -1.25, -1.25)%float.
Proof. vm_compute. reflexivity. Qed.

(** The hypotheses of the claim on held signals. *)
Notation Vq := (bound_value (env_q Eq4)).
Notation Dq := (e_data (env_q Eq4)).
Lemma quarters_trace : trace 2 Dq.
Proof. apply trace_check. vm_compute. reflexivity. Qed.
Lemma quarters_timed : timed Vq 2 (fml_q both_d).
Proof.
  cbn [timed fml_q both_d under_d sum_d above expression]. repeat match goal with |- _ /\ _ => split end; first [exact I | qdec | repeat constructor].
Qed.
Lemma quarters_covers : covers Vq (last_time Dq) (fml_q both_d) (qval 0).
Proof. cbn [covers fml_q both_d under_d sum_d above]. repeat match goal with |- _ /\ _ => split end; qdec. Qed.
Lemma quarters_within : within_of held (eff (env_q Eq4)) Vq Dq (e_M (env_q Eq4)) (fml_q both_d).
Proof.
  assert (C : forall c t v, c = 1%nat \/ c = 2%nat -> held (column Dq c) t v -> q (-5) <= v /\ v <= q 5).
  { intros c t v [->| ->] H; apply (held_within _ _ (q (-5)) (q 5)) in H; auto; repeat constructor; qdec. }
  assert (EM : e_M (env_q Eq4) = q 100) by (apply Qc_is_canon; vm_compute; reflexivity). rewrite EM.
  assert (N5 : q (-5) = - q 5) by (apply Qc_is_canon; vm_compute; reflexivity).
  assert (P : forall c, c = 1%nat \/ c = 2%nat -> within_of held (eff (env_q Eq4)) Vq Dq (q 100) (fml_q (above c 0%float))).
  { intros c Hc. cbn [within_of fml_q above]. intros t u H. cbn [rob_of expr_of] in H. destruct H as (a & b & A & -> & ->).
    apply C in A; auto. set (z := eff _ _ _). assert (Z : z = 0) by (apply Qc_is_canon; vm_compute; reflexivity). rewrite Z. destruct A. rewrite N5 in *.
    assert (q 5 <= q 100) by qdec. split; qlra. }
  cbn [within_of fml_q both_d under_d]. split; [split; apply P; auto|].
  cbn [within_of fml_q sum_d]. intros t u H. cbn [rob_of expr_of] in H.
  destruct H as (a & b & (x & y & (x0 & X & ->) & (k & y0 & -> & Y & ->) & ->) & -> & ->). apply C in X; auto. apply C in Y; auto.
  set (two := eff _ _ (qval 2)). assert (T2 : two = 1 + 1) by (apply Qc_is_canon; vm_compute; reflexivity). rewrite T2.
  set (z := eff _ _ _). assert (Z : z = Q2Qc (15 # 2)) by (apply Qc_is_canon; vm_compute; reflexivity). rewrite Z.
  destruct X as [X1 X2], Y as [Y1 Y2]. rewrite N5 in *.
  assert (A1 : - q 5 <= qmax x0 (- x0) /\ qmax x0 (- x0) <= q 5).
  { unfold qmax. destruct (Qclt_le_dec x0 (- x0)); split; auto; qlra. }
  destruct A1 as [A1 A2].
  assert (q 5 + (1 + 1) * q 5 - Q2Qc (15 # 2) <= q 100) by qdec. assert (- q 100 <= - q 5 - (1 + 1) * q 5 - Q2Qc (15 # 2)) by qdec.
  split; qlra.
Qed.
Lemma quarters_at_samples : at_samples Vq Dq (fml_q both_d) (qval 0) (qval 0).
Proof. cbn [at_samples fml_q both_d under_d sum_d above is_leaf]. auto 8. Qed.
Lemma quarters_settled : StepSpec.settled held (eff (env_q Eq4)) Vq Dq (fml_q both_d) (qval 0) (qval 0).
Proof.
  apply (apart_settled 2 (env_q Eq4)); [exact quarters_trace|exact quarters_timed|].
  cbn [apart_ends apart fml_q both_d under_d sum_d above].
  repeat match goal with |- _ /\ _ => split end; try exact I; try (left; reflexivity).
  all: right; repeat match goal with |- _ /\ _ => split end; apply not_row; vm_compute; reflexivity.
Qed.

(** alw_[0,0.5] (x > 0.3 or not ev_[0,0.5] y > 0.9), values at tenths: the differences are
    rounded. *)
Definition tens : list (list float) := [[0; 0.1; 0.2]; [0.25; -0.2; 0.1]; [0.75; 0.4; 0.3]; [1.25; 2.1; 3.3]]%float.
Definition tens_d : fml float := FAlw (ivf 0 0.5) (FOr (above 1 0.3) (FNot (FEv (ivf 0 0.5) (above 2 0.9)))).
Notation Et := (env_d PREVIOUS tens).
Notation Vt := (bound_value (env_q Et)).
Notation Dt := (e_data (env_q Et)).
Lemma tens_binary : on_binary_times 2 8 2 Et tens_d 0 0.
Proof.
  split; try reflexivity; try (split; [|]; lia); try (apply finite_check; reflexivity); try (apply fixed_check; vm_compute; reflexivity); try lia.
  - apply rows_check. vm_compute. reflexivity.
  - cbn [plain_numbers tens_d above]. repeat match goal with |- _ /\ _ => split end;
      first [exact I | apply fixed_check; vm_compute; reflexivity | apply finite_check; vm_compute; reflexivity].
  - cbn [logical tens_d above arithmetic]. repeat split.
Qed.
Lemma tens_operands : exact_operands (env_q Et) (fml_q tens_d).
Proof. cbn [exact_operands fml_q tens_d above no_rounding]. repeat split. Qed.
Lemma tens_trace : trace 2 Dt.
Proof. apply trace_check. vm_compute. reflexivity. Qed.
Lemma tens_timed : timed Vt 2 (fml_q tens_d).
Proof.
  cbn [timed fml_q tens_d above expression]. repeat match goal with |- _ /\ _ => split end; first [exact I | qdec | repeat constructor].
Qed.
Lemma tens_covers : covers Vt (last_time Dt) (fml_q tens_d) (qval 0).
Proof. cbn [covers fml_q tens_d above]. repeat match goal with |- _ /\ _ => split end; qdec. Qed.
Lemma tens_within : within_of held (eff (env_q Et)) Vt Dt (e_M (env_q Et)) (fml_q tens_d).
Proof.
  assert (C : forall c t v, c = 1%nat \/ c = 2%nat -> held (column Dt c) t v -> q (-5) <= v /\ v <= q 5).
  { intros c t v [->| ->] H; apply (held_within _ _ (q (-5)) (q 5)) in H; auto; repeat constructor; qdec. }
  assert (EM : e_M (env_q Et) = q 100) by (apply Qc_is_canon; vm_compute; reflexivity). rewrite EM.
  assert (N5 : q (-5) = - q 5) by (apply Qc_is_canon; vm_compute; reflexivity).
  assert (L : q 5 + 1 <= q 100) by qdec.
  cbn [within_of fml_q tens_d above]. split; intros t u H; cbn [rob_of expr_of] in H; destruct H as (a & b & A & -> & ->);
    apply C in A; auto; set (z := eff _ _ _); (assert (Z : 0 <= z /\ z <= 1) by (split; qdec)); destruct A, Z; rewrite N5 in *; split; qlra.
Qed.
Lemma tens_at_samples : at_samples Vt Dt (fml_q tens_d) (qval 0) (qval 0).
Proof. cbn [at_samples fml_q tens_d above is_leaf]. auto 8. Qed.
Lemma tens_apart : apart_ends Vt Dt (fml_q tens_d) (qval 0) (qval 0).
Proof.
  cbn [apart_ends apart fml_q tens_d above].
  repeat match goal with |- _ /\ _ => split end; try exact I; try (left; reflexivity).
  all: right; repeat match goal with |- _ /\ _ => split end; apply not_row; vm_compute; reflexivity.
Qed.
Lemma tens_rounded : exists v q, numbers (evaluate Et (build tens_d) 0%float 0%float) = Ok (v, v, v) /\
  numbers (evaluate (env_q Et) (build (fml_q tens_d)) (qval 0) (qval 0)) = Ok (q, q, q) /\ 0 < q /\ qval v <> q.
Proof. eexists. eexists. split; [vm_compute; reflexivity|]. split; [vm_compute; reflexivity|]. split; [vm_compute; reflexivity|]. intros C. apply (f_equal this) in C. revert C. vm_compute. discriminate. Qed.
