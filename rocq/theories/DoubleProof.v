(** Facts about doubles, from Flocq. *)
From Coq Require Import ZArith QArith Qcanon Bool Reals Qreals Lra Lia PrimFloat SpecFloat FloatOps.
From Flocq Require Import Core Plus_error IEEE754.BinarySingleNaN IEEE754.PrimFloat.
From Verif Require Import Num NumFloat Double.

Local Open Scope R_scope.
Local Notation float := PrimFloat.float.

Definition rv (x : float) : R := B2R (Prim2B x).
Definition qr (q : Qc) : R := Q2R (this q).

Lemma finite_is : forall x, finite x <-> is_finite (Prim2B x) = true.
Proof.
  intros x. unfold finite. rewrite <- B2SF_Prim2B. destruct (Prim2B x); cbn; intuition discriminate.
Qed.

Lemma qr_add : forall a b, qr (a + b)%Qc = qr a + qr b.
Proof. intros. unfold qr. rewrite <- Q2R_plus. apply Qeq_eqR. apply Qred_correct. Qed.
Lemma qr_opp : forall a, qr (- a)%Qc = - qr a.
Proof. intros. unfold qr. rewrite <- Q2R_opp. apply Qeq_eqR. apply Qred_correct. Qed.
Lemma qr_sub : forall a b, qr (a - b)%Qc = qr a - qr b.
Proof. intros. unfold Qcminus. rewrite qr_add, qr_opp. reflexivity. Qed.
Lemma qr_mul : forall a b, qr (a * b)%Qc = qr a * qr b.
Proof. intros. unfold qr. rewrite <- Q2R_mult. apply Qeq_eqR. apply Qred_correct. Qed.
Lemma qr_0 : qr 0%Qc = 0.
Proof. unfold qr. cbn. unfold Q2R. cbn. lra. Qed.
Lemma qr_inj : forall a b, qr a = qr b -> a = b.
Proof. intros a b H. apply Qc_is_canon. apply eqR_Qeq. exact H. Qed.
Lemma qr_Q2Qc : forall x, qr (Q2Qc x) = Q2R x.
Proof. intros. unfold qr. apply Qeq_eqR. apply Qred_correct. Qed.

Lemma Q2R_int : forall n d, Q2R (n # d) = IZR n / IZR (Zpos d).
Proof. reflexivity. Qed.

Lemma qr_qval : forall x, qr (qval x) = rv x.
Proof.
  intros x. unfold qval, rv. rewrite <- B2SF_Prim2B. destruct (Prim2B x) as [s|s| |s m e H]; cbn [B2SF B2R]; try apply qr_0.
  rewrite qr_Q2Qc. unfold F2R. cbn [Fnum Fexp].
  assert (E : IZR (if s then Z.neg m else Z.pos m) = IZR (cond_Zopp s (Z.pos m))) by (destruct s; reflexivity).
  destruct e as [|p|p].
  - rewrite Q2R_int, E. cbn. lra.
  - rewrite Q2R_int, mult_IZR, E. rewrite <- (IZR_Zpower radix2) by lia. change (IZR 1) with 1. cbn [Zpower.Zpower_nat]. unfold Rdiv. rewrite Rinv_1, Rmult_1_r. reflexivity.
  - rewrite Q2R_int, E. unfold Rdiv. f_equal.
    change (Z.neg p) with (- Z.pos p)%Z. rewrite bpow_opp, <- (IZR_Zpower radix2) by lia. f_equal. f_equal.
    change (radix_val radix2) with 2%Z. rewrite Pos2Z.inj_pow. reflexivity.
Qed.

Lemma den_is : forall x q, den x q <-> is_finite (Prim2B x) = true /\ rv x = qr q.
Proof.
  intros. unfold den. rewrite finite_is. split; intros [A B]; split; auto.
  - rewrite <- B. symmetry. apply qr_qval.
  - apply qr_inj. rewrite qr_qval. exact B.
Qed.

Lemma Qle_R : forall a b, Qle_bool (this a) (this b) = Rle_bool (qr a) (qr b).
Proof.
  intros. destruct (Rle_bool_spec (qr a) (qr b)) as [H|H].
  - apply Qle_bool_iff. apply Rle_Qle. exact H.
  - apply not_true_iff_false. intro K. apply Qle_bool_iff in K. apply Qle_Rle in K. unfold qr in H. lra.
Qed.
Lemma Qeq_R : forall a b, Qeq_bool (this a) (this b) = Req_bool (qr a) (qr b).
Proof.
  intros. destruct (Req_bool_spec (qr a) (qr b)) as [H|H].
  - apply Qeq_bool_iff. apply eqR_Qeq. exact H.
  - apply not_true_iff_false. intro K. apply Qeq_bool_iff in K. apply Qeq_eqR in K. auto.
Qed.

Section Compare.
Variables (x y : float) (p q : Qc).
Hypothesis (X : den x p) (Y : den y q).

Lemma den_ltb : PrimFloat.ltb x y = @nltb Qc NumQc p q.
Proof.
  apply den_is in X. apply den_is in Y. destruct X as [X1 X2], Y as [Y1 Y2].
  rewrite ltb_equiv, Bltb_correct by auto. unfold rv in X2, Y2. rewrite X2, Y2. cbn [nltb NumQc]. rewrite Qle_R.
  destruct (Rlt_bool_spec (qr p) (qr q)), (Rle_bool_spec (qr q) (qr p)); auto; lra.
Qed.
Lemma den_leb : PrimFloat.leb x y = @nleb Qc NumQc p q.
Proof.
  apply den_is in X. apply den_is in Y. destruct X as [X1 X2], Y as [Y1 Y2].
  rewrite leb_equiv, Bleb_correct by auto. unfold rv in X2, Y2. rewrite X2, Y2. cbn [nleb NumQc]. rewrite Qle_R. reflexivity.
Qed.
Lemma den_eqb : PrimFloat.eqb x y = @neqb Qc NumQc p q.
Proof.
  apply den_is in X. apply den_is in Y. destruct X as [X1 X2], Y as [Y1 Y2].
  rewrite eqb_equiv, Beqb_correct by auto. unfold rv in X2, Y2. rewrite X2, Y2. cbn [neqb NumQc]. rewrite Qeq_R. reflexivity.
Qed.
End Compare.

Lemma den_opp : forall x p, den x p -> den (- x)%float (- p)%Qc.
Proof.
  intros x p H. apply den_is in H. apply den_is. destruct H as [A B]. unfold rv in *. rewrite opp_equiv, is_finite_Bopp, B2R_Bopp, B, qr_opp. auto.
Qed.
Lemma den_abs : forall x p, den x p -> den (abs x) (Qc_abs p).
Proof.
  intros x p H. apply den_is in H. apply den_is. destruct H as [A B]. unfold rv in *. rewrite abs_equiv, is_finite_Babs, B2R_Babs, B. split; auto.
  unfold Qc_abs. change 0%Q with (this 0%Qc). rewrite Qle_R, qr_0. destruct (Rle_bool_spec 0 (qr p)).
  - apply Rabs_pos_eq. auto.
  - rewrite qr_opp. apply Rabs_left. auto.
Qed.
Lemma den_0 : den 0%float 0%Qc.
Proof. split; [exact Logic.I|reflexivity]. Qed.
Lemma den_1 : den 1%float 1%Qc.
Proof. split; [exact Logic.I|apply Qc_is_canon; vm_compute; reflexivity]. Qed.

Local Notation fmt := (generic_format radix2 (SpecFloat.fexp prec emax)).
Local Notation rnd := (round radix2 (SpecFloat.fexp prec emax) (round_mode mode_NE)).

Lemma representable_is : forall q, representable q -> fmt (qr q) /\ Rabs (qr q) < bpow radix2 emax.
Proof.
  intros q (x & H). apply den_is in H. destruct H as [A B]. unfold rv in B. rewrite <- B. split.
  - apply generic_format_B2R.
  - apply abs_B2R_lt_emax.
Qed.

Lemma den_add : forall x y p q, den x p -> den y q -> representable (p + q)%Qc -> den (x + y)%float (p + q)%Qc.
Proof.
  intros x y p q X Y R. apply representable_is in R. apply den_is in X. apply den_is in Y. destruct X as [X1 X2], Y as [Y1 Y2], R as [F B].
  apply den_is. unfold rv in *. rewrite add_equiv. generalize (Bplus_correct prec emax Hprec Hmax mode_NE _ _ X1 Y1).
  rewrite X2, Y2, <- qr_add, round_generic by (auto with typeclass_instances). rewrite Rlt_bool_true by auto. tauto.
Qed.
Lemma den_sub : forall x y p q, den x p -> den y q -> representable (p - q)%Qc -> den (x - y)%float (p - q)%Qc.
Proof.
  intros x y p q X Y R. apply representable_is in R. apply den_is in X. apply den_is in Y. destruct X as [X1 X2], Y as [Y1 Y2], R as [F B].
  apply den_is. unfold rv in *. rewrite sub_equiv. generalize (Bminus_correct prec emax Hprec Hmax mode_NE _ _ X1 Y1).
  rewrite X2, Y2, <- qr_sub, round_generic by (auto with typeclass_instances). rewrite Rlt_bool_true by auto. tauto.
Qed.
Lemma den_mul : forall x y p q, den x p -> den y q -> representable (p * q)%Qc -> den (x * y)%float (p * q)%Qc.
Proof.
  intros x y p q X Y R. apply representable_is in R. apply den_is in X. apply den_is in Y. destruct X as [X1 X2], Y as [Y1 Y2], R as [F B].
  apply den_is. unfold rv in *. rewrite mul_equiv. generalize (Bmult_correct prec emax Hprec Hmax mode_NE (Prim2B x) (Prim2B y)).
  rewrite X2, Y2, <- qr_mul, round_generic by (auto with typeclass_instances). rewrite Rlt_bool_true by auto. rewrite X1, Y1. tauto.
Qed.

(** ** Multiples of a power of two *)
Lemma grid_real : forall k b q, (0 <= k)%Z -> on_grid k b q -> exists m, (Z.abs m <= b)%Z /\ qr q = IZR m * bpow radix2 (- k).
Proof.
  intros k b q K (m & B & ->). exists m. split; auto. rewrite qr_Q2Qc, Q2R_int. unfold Rdiv. f_equal.
  rewrite bpow_opp, <- (IZR_Zpower radix2) by auto. f_equal. f_equal. change (radix_val radix2) with 2%Z.
  rewrite Z2Pos.id; auto. apply Z.pow_pos_nonneg; lia.
Qed.
Lemma real_grid : forall k b q m, (0 <= k)%Z -> (Z.abs m <= b)%Z -> qr q = IZR m * bpow radix2 (- k) -> on_grid k b q.
Proof.
  intros k b q m K B E. exists m. split; auto. apply qr_inj. rewrite E, qr_Q2Qc, Q2R_int. unfold Rdiv. f_equal.
  rewrite bpow_opp, <- (IZR_Zpower radix2) by auto. f_equal. f_equal. change (radix_val radix2) with 2%Z.
  rewrite Z2Pos.id; auto. apply Z.pow_pos_nonneg; lia.
Qed.

Lemma fmt_grid : forall m k, (0 <= k <= 1074)%Z -> (Z.abs m < 2 ^ 53)%Z -> fmt (IZR m * bpow radix2 (- k)).
Proof.
  intros m k K B. change (generic_format radix2 (FLT_exp (SpecFloat.emin prec emax) prec) (F2R (Float radix2 m (- k)))).
  apply generic_format_FLT. exists (Float radix2 m (- k)); auto. cbn [Fexp]. change (SpecFloat.emin prec emax) with (-1074)%Z. lia.
Qed.
Lemma small_grid : forall m k, (0 <= k)%Z -> (Z.abs m < 2 ^ 53)%Z -> Rabs (IZR m * bpow radix2 (- k)) < bpow radix2 emax.
Proof.
  intros m k K B. rewrite Rabs_mult, <- abs_IZR. rewrite (Rabs_pos_eq (bpow _ _)) by apply bpow_ge_0.
  apply Rle_lt_trans with (IZR (Z.abs m) * 1).
  - apply Rmult_le_compat_l. { apply IZR_le. lia. } change 1 with (bpow radix2 0). apply bpow_le. lia.
  - rewrite Rmult_1_r. apply Rlt_trans with (bpow radix2 53).
    + rewrite <- (IZR_Zpower radix2) by lia. apply IZR_lt. exact B.
    + apply bpow_lt. unfold emax. lia.
Qed.

Definition grid (k b : Z) (x : float) (q : Qc) : Prop := den x q /\ on_grid k b q.

Lemma grid_den : forall k b x q, grid k b x q -> den x q.
Proof. intros k b x q [H _]. exact H. Qed.
Lemma grid_le : forall k b c x q, grid k b x q -> (b <= c)%Z -> grid k c x q.
Proof. intros k b c x q [H (m & B & E)] L. split; auto. exists m. split; auto. lia. Qed.
Lemma grid_opp : forall k b x q, grid k b x q -> grid k b (- x)%float (- q)%Qc.
Proof.
  intros k b x q [H (m & B & E)]. split; [apply den_opp; auto|]. exists (- m)%Z. rewrite Z.abs_opp. split; auto. subst q.
  apply Qc_is_canon. cbn [this Q2Qc Qcopp]. rewrite !Qred_correct. reflexivity.
Qed.
Lemma grid_0 : forall k, (0 <= k)%Z -> grid k 0 0%float 0%Qc.
Proof.
  intros k K. split; [apply den_0|]. exists 0%Z. split; [lia|]. apply Qc_is_canon. cbn [this Q2Qc]. rewrite Qred_correct. reflexivity.
Qed.

Lemma grid_add : forall k b c x y p q, (0 <= k <= 1074)%Z -> (b + c < 2 ^ 53)%Z -> grid k b x p -> grid k c y q ->
  grid k (b + c) (x + y)%float (p + q)%Qc.
Proof.
  intros k b c x y p q K L [X GX] [Y GY].
  destruct (grid_real k b p) as (m & M1 & M2); [lia|auto|]. destruct (grid_real k c q) as (n & N1 & N2); [lia|auto|].
  assert (E : qr (p + q)%Qc = IZR (m + n) * bpow radix2 (- k)) by (rewrite qr_add, M2, N2, plus_IZR; ring).
  split; [|apply (real_grid k (b + c) _ (m + n)); auto; lia].
  apply den_is in X. apply den_is in Y. destruct X as [X1 X2], Y as [Y1 Y2].
  apply den_is. unfold rv in *. rewrite add_equiv. generalize (Bplus_correct prec emax Hprec Hmax mode_NE _ _ X1 Y1).
  rewrite X2, Y2, <- qr_add, E, round_generic by (auto using fmt_grid with typeclass_instances; apply fmt_grid; lia).
  rewrite Rlt_bool_true by (apply small_grid; lia). tauto.
Qed.
Lemma grid_sub : forall k b c x y p q, (0 <= k <= 1074)%Z -> (b + c < 2 ^ 53)%Z -> grid k b x p -> grid k c y q ->
  grid k (b + c) (x - y)%float (p - q)%Qc.
Proof.
  intros k b c x y p q K L [X GX] [Y GY].
  destruct (grid_real k b p) as (m & M1 & M2); [lia|auto|]. destruct (grid_real k c q) as (n & N1 & N2); [lia|auto|].
  assert (E : qr (p - q)%Qc = IZR (m - n) * bpow radix2 (- k)) by (rewrite qr_sub, M2, N2, minus_IZR; ring).
  split; [|apply (real_grid k (b + c) _ (m - n)); auto; lia].
  apply den_is in X. apply den_is in Y. destruct X as [X1 X2], Y as [Y1 Y2].
  apply den_is. unfold rv in *. rewrite sub_equiv. generalize (Bminus_correct prec emax Hprec Hmax mode_NE _ _ X1 Y1).
  rewrite X2, Y2, <- qr_sub, E, round_generic by (auto using fmt_grid with typeclass_instances; apply fmt_grid; lia).
  rewrite Rlt_bool_true by (apply small_grid; lia). tauto.
Qed.

Lemma den_add_0 : forall x z q, den x q -> den z 0%Qc -> den (x + z)%float q.
Proof.
  intros x z q X Z. replace q with (q + 0)%Qc by ring. apply den_add; auto. exists x. replace (q + 0)%Qc with q by ring. auto.
Qed.
Lemma den_mul_0 : forall z y, den z 0%Qc -> finite y -> den (z * y)%float 0%Qc.
Proof.
  intros z y Z Y. replace 0%Qc with (0 * qval y)%Qc by ring. apply den_mul; auto.
  - split; auto.
  - exists 0%float. replace (0 * qval y)%Qc with 0%Qc by ring. apply den_0.
Qed.

(** ** The tolerance of resize *)
Lemma eps_real : is_finite (Prim2B (@neps float NumF)) = true /\ 0 < rv (@neps float NumF) < bpow radix2 (-45).
Proof.
  split; [apply finite_is; exact Logic.I|].
  rewrite <- qr_qval. set (e := qval neps).
  assert (A : (0 < e)%Qc) by (unfold e; vm_compute; reflexivity).
  assert (B : (e < Q2Qc (1 # 35184372088832))%Qc) by (unfold e; vm_compute; reflexivity).
  apply Qlt_Rlt in A. apply Qlt_Rlt in B. fold (qr e) in A, B. fold (qr 0%Qc) in A. rewrite qr_0 in A.
  fold (qr (Q2Qc (1 # 35184372088832))) in B. rewrite qr_Q2Qc, Q2R_int in B. split; auto.
  replace (bpow radix2 (-45)) with (IZR 1 / IZR 35184372088832); auto. cbn. lra.
Qed.
Lemma eps_rational : 0 < qr Qc_eps < bpow radix2 (-45).
Proof.
  assert (A : (0 < Qc_eps)%Qc) by (vm_compute; reflexivity).
  assert (B : (Qc_eps < Q2Qc (1 # 35184372088832))%Qc) by (vm_compute; reflexivity).
  apply Qlt_Rlt in A. apply Qlt_Rlt in B. fold (qr Qc_eps) in A, B. fold (qr 0%Qc) in A. rewrite qr_0 in A.
  fold (qr (Q2Qc (1 # 35184372088832))) in B. rewrite qr_Q2Qc, Q2R_int in B. split; auto.
  replace (bpow radix2 (-45)) with (IZR 1 / IZR 35184372088832); auto. cbn. lra.
Qed.

Lemma rnd_le : forall x y, x <= y -> rnd x <= rnd y.
Proof. intros x y H. apply round_le; auto; [apply fexp_correct; exact Hprec|apply valid_rnd_round_mode]. Qed.

Lemma grid_eps : forall k b t s p q, (0 <= k <= 44)%Z -> (b < 2 ^ 51)%Z -> grid k b t p -> grid k b s q ->
  PrimFloat.ltb t (PrimFloat.sub s (@neps float NumF)) = @nltb Qc NumQc p (Qcminus q Qc_eps).
Proof.
  intros k b t s p q K L [T GT] [S GS].
  destruct (grid_real k b p) as (m & M1 & M2); [lia|auto|]. destruct (grid_real k b q) as (n & N1 & N2); [lia|auto|].
  apply den_is in T. apply den_is in S. destruct T as [T1 T2], S as [S1 S2].
  destruct eps_real as [F [E1 E2]]. pose proof eps_rational as [R1 R2].
  assert (G : bpow radix2 (-45) <= bpow radix2 (- k - 1)) by (apply bpow_le; lia).
  assert (H2 : bpow radix2 (- k) = 2 * bpow radix2 (- k - 1)).
  { replace (- k)%Z with (1 + (- k - 1))%Z by lia. rewrite bpow_plus. replace (1 + (- k - 1) - 1)%Z with (- k - 1)%Z by lia. reflexivity. }
  assert (H0 : 0 < bpow radix2 (- k - 1)) by apply bpow_gt_0.
  set (h := bpow radix2 (- k - 1)) in *.
  unfold rv in *. set (e := B2R (Prim2B neps)) in *.
  assert (V1 : rnd (qr q) = qr q) by (rewrite N2; apply round_generic; [auto with typeclass_instances|apply fmt_grid; lia]).
  assert (V2 : rnd (qr q - h) = qr q - h).
  { apply round_generic; [auto with typeclass_instances|].
    replace (qr q - h) with (IZR (2 * n - 1) * bpow radix2 (- (k + 1))).
    - apply fmt_grid; lia.
    - rewrite minus_IZR, mult_IZR, N2, H2. replace (- (k + 1))%Z with (- k - 1)%Z by lia. fold h. ring. }
  assert (U1 : rnd (qr q - e) <= qr q).
  { apply Rle_trans with (rnd (qr q)); [apply rnd_le; lra|rewrite V1; apply Rle_refl]. }
  assert (U2 : qr q - h <= rnd (qr q - e)).
  { apply Rle_trans with (rnd (qr q - h)); [rewrite V2; apply Rle_refl|apply rnd_le; lra]. }
  assert (Bd : Rabs (rnd (qr q - e)) < bpow radix2 emax).
  { assert (A : Rabs (qr q) < bpow radix2 emax) by (rewrite N2; apply small_grid; lia).
    assert (A' : Rabs (qr q - h) < bpow radix2 emax).
    { replace (qr q - h) with (IZR (2 * n - 1) * bpow radix2 (- (k + 1))).
      - apply small_grid; lia.
      - rewrite minus_IZR, mult_IZR, N2, H2. replace (- (k + 1))%Z with (- k - 1)%Z by lia. fold h. ring. }
    apply Rabs_lt_inv in A. apply Rabs_lt_inv in A'. apply Rabs_lt. lra. }
  generalize (Bminus_correct prec emax Hprec Hmax mode_NE _ _ S1 F). fold e. rewrite S2, Rlt_bool_true by auto. intros (W1 & W2 & _).
  rewrite ltb_equiv, sub_equiv, Bltb_correct by auto. rewrite T2, W1. cbn [nltb NumQc]. rewrite Qle_R, qr_sub.
  destruct (Z_lt_le_dec m n) as [D|D].
  - assert (C : qr p <= qr q - bpow radix2 (- k)).
    { rewrite M2, N2. assert (IZR m <= IZR n - 1) by (rewrite <- minus_IZR; apply IZR_le; lia).
      pose proof (bpow_gt_0 radix2 (- k)). nra. }
    rewrite Rlt_bool_true by lra. rewrite Rle_bool_false by lra. reflexivity.
  - assert (C : qr q <= qr p).
    { rewrite M2, N2. apply Rmult_le_compat_r; [apply bpow_ge_0|apply IZR_le; auto]. }
    rewrite Rlt_bool_false by lra. rewrite Rle_bool_true by lra. reflexivity.
Qed.

(** ** Expressions over numbers with few binary digits *)
Lemma grid_mul : forall k l b c x y p q, (0 <= k)%Z -> (0 <= l)%Z -> (k + l <= 1074)%Z -> (b * c < 2 ^ 53)%Z -> grid k b x p -> grid l c y q ->
  grid (k + l) (b * c) (x * y)%float (p * q)%Qc.
Proof.
  intros k l b c x y p q K L KL B [X GX] [Y GY].
  destruct (grid_real k b p) as (m & M1 & M2); [lia|auto|]. destruct (grid_real l c q) as (n & N1 & N2); [lia|auto|].
  assert (E : qr (p * q)%Qc = IZR (m * n) * bpow radix2 (- (k + l))).
  { rewrite qr_mul, M2, N2, mult_IZR. replace (- (k + l))%Z with (- k + - l)%Z by lia. rewrite bpow_plus. ring. }
  assert (A : (Z.abs (m * n) <= b * c)%Z) by (rewrite Z.abs_mul; nia).
  split; [|apply (real_grid (k + l) (b * c) _ (m * n)); auto; lia].
  apply den_is in X. apply den_is in Y. destruct X as [X1 X2], Y as [Y1 Y2].
  apply den_is. unfold rv in *. rewrite mul_equiv. generalize (Bmult_correct prec emax Hprec Hmax mode_NE (Prim2B x) (Prim2B y)).
  rewrite X2, Y2, <- qr_mul, E, round_generic by (auto using fmt_grid with typeclass_instances; apply fmt_grid; lia).
  rewrite Rlt_bool_true by (apply small_grid; lia). rewrite X1, Y1. tauto.
Qed.
Lemma grid_fine : forall k l b x q, (0 <= k <= l)%Z -> grid k b x q -> grid l (b * 2 ^ (l - k)) x q.
Proof.
  intros k l b x q K [X G]. split; auto. destruct (grid_real k b q) as (m & M1 & M2); [lia|auto|].
  assert (P : (0 < 2 ^ (l - k))%Z) by (apply Z.pow_pos_nonneg; lia).
  apply (real_grid l _ q (m * 2 ^ (l - k))); [lia|rewrite Z.abs_mul, (Z.abs_eq (2 ^ _)) by lia; nia|].
  rewrite M2, mult_IZR. change 2%Z with (radix_val radix2). rewrite IZR_Zpower by lia. rewrite Rmult_assoc, <- bpow_plus. do 2 f_equal. lia.
Qed.
Lemma grid_abs : forall k b x q, (0 <= k)%Z -> grid k b x q -> grid k b (abs x) (@nabs Qc NumQc q).
Proof.
  intros k b x q K [X G]. split; [apply den_abs; auto|]. cbn [nabs NumQc]. unfold Qc_abs. destruct (Qle_bool 0 q); auto. apply (grid_opp k b x q). split; auto.
Qed.

(** ** Rounded differences *)
(** [q] is what [p] is rounded to, not 0 unless [p] is. *)
Definition rd (p q : Qc) : Prop := representable q /\ qr q = rnd (qr p) /\ (q = 0%Qc -> p = 0%Qc).

Local Instance valid_exp : Valid_exp (SpecFloat.fexp prec emax).
Proof. apply (@FLT_exp_valid (SpecFloat.emin prec emax) prec Hprec). Qed.
Local Instance not_ftz : Exp_not_FTZ (SpecFloat.fexp prec emax).
Proof. apply (@monotone_exp_not_FTZ); [apply valid_exp|]. apply (FLT_exp_monotone (SpecFloat.emin prec emax) prec). Qed.

Lemma qr_le : forall a b, (a <= b)%Qc <-> qr a <= qr b.
Proof. intros a b. split; [apply Qle_Rle|apply Rle_Qle]. Qed.
Lemma qr_lt : forall a b, (a < b)%Qc <-> qr a < qr b.
Proof. intros a b. split; [apply Qlt_Rlt|apply Rlt_Qlt]. Qed.
Lemma rd_mono : forall p q p' q', rd p q -> rd p' q' -> (p <= p')%Qc -> (q <= q')%Qc.
Proof.
  intros p q p' q' (_ & A & _) (_ & B & _) L. apply qr_le. rewrite A, B. apply round_le; auto with typeclass_instances. apply qr_le. exact L.
Qed.
Lemma rd_opp : forall p q, rd p q -> rd (- p)%Qc (- q)%Qc.
Proof.
  intros p q ((x & X) & A & Z). split; [|split].
  - exists (- x)%float. apply den_opp. exact X.
  - rewrite !qr_opp, A. symmetry. apply round_NE_opp.
  - intros H. rewrite Z; [ring|]. replace q with (- - q)%Qc by ring. rewrite H. ring.
Qed.
Lemma rd_within : forall p q M, rd p q -> representable M -> (- M <= p)%Qc -> (p <= M)%Qc -> (- M <= q)%Qc /\ (q <= M)%Qc.
Proof.
  intros p q M (_ & A & _) R L U. destruct (representable_is M R) as [F _].
  apply qr_le in L, U. rewrite qr_opp in L. split; apply qr_le; [rewrite qr_opp|]; rewrite A.
  - apply round_ge_generic; auto with typeclass_instances. apply generic_format_opp. exact F.
  - apply round_le_generic; auto with typeclass_instances.
Qed.
Lemma rd_sub : forall x y p q M, den x p -> den y q -> representable M -> (- M <= p - q)%Qc -> (p - q <= M)%Qc ->
  finite (x - y)%float /\ rd (p - q)%Qc (qval (x - y)%float).
Proof.
  intros x y p q M X Y R L U. destruct (representable_is M R) as [F B].
  assert (Fx : fmt (qr p)) by (apply representable_is; exists x; exact X). assert (Fy : fmt (qr q)) by (apply representable_is; exists y; exact Y).
  apply den_is in X. apply den_is in Y. destruct X as [X1 X2], Y as [Y1 Y2].
  apply qr_le in L, U. rewrite qr_opp in L.
  assert (Bd : Rabs (rnd (qr (p - q)%Qc)) < bpow radix2 emax).
  { apply Rle_lt_trans with (qr M); [|apply Rle_lt_trans with (2 := B); apply RRle_abs]. apply Rabs_le. split.
    - apply round_ge_generic; auto with typeclass_instances. apply generic_format_opp. exact F.
    - apply round_le_generic; auto with typeclass_instances. }
  unfold rv in *. generalize (Bminus_correct prec emax Hprec Hmax mode_NE _ _ X1 Y1).
  rewrite X2, Y2, <- qr_sub, Rlt_bool_true by exact Bd. intros (D1 & D2 & _).
  assert (Fin : finite (x - y)%float) by (apply finite_is; rewrite sub_equiv; exact D2).
  assert (V : qr (qval (x - y)%float) = rnd (qr (p - q)%Qc)) by (rewrite qr_qval; unfold rv; rewrite sub_equiv; exact D1).
  split; auto. split; [exists (x - y)%float; split; auto|]. split; [exact V|]. intros Z. rewrite Z, qr_0 in V.
  destruct (Req_dec (qr (p - q)%Qc) 0) as [E|E]; [apply qr_inj; rewrite E, qr_0; reflexivity|]. exfalso.
  rewrite qr_sub in V, E. unfold Rminus in *. symmetry in V. revert V. apply round_plus_neq_0; auto with typeclass_instances.
  apply generic_format_opp. exact Fy.
Qed.
Lemma qr_abs : forall a, qr (Qc_abs a) = Rabs (qr a).
Proof.
  intros a. unfold Qc_abs. change 0%Q with (this 0%Qc). rewrite Qle_R, qr_0. destruct (Rle_bool_spec 0 (qr a)).
  - rewrite Rabs_pos_eq; auto.
  - rewrite Rabs_left, qr_opp; auto.
Qed.
Lemma rd_rounds : forall x p q, den x q -> rd p q -> rounds x p.
Proof.
  intros x p q [X E] (_ & A & Z). split; auto. rewrite E. split; [|split].
  - intros y Y. apply qr_le. rewrite !qr_abs, !qr_sub, A. apply (round_N_pt radix2 (SpecFloat.fexp prec emax)).
    rewrite qr_qval. apply generic_format_B2R.
  - intros H. apply qr_lt in H. apply qr_lt. rewrite qr_0 in *. assert (0 <= qr q).
    { rewrite A. apply round_ge_generic; auto with typeclass_instances; [apply generic_format_0|lra]. }
    destruct (Req_dec (qr q) 0) as [K|K]; [|lra]. exfalso. rewrite Z in H; [rewrite qr_0 in H; lra|]. apply qr_inj. rewrite K, qr_0. reflexivity.
  - intros H. apply qr_lt in H. apply qr_lt. rewrite qr_0 in *. assert (qr q <= 0).
    { rewrite A. apply round_le_generic; auto with typeclass_instances; [apply generic_format_0|lra]. }
    destruct (Req_dec (qr q) 0) as [K|K]; [|lra]. exfalso. rewrite Z in H; [rewrite qr_0 in H; lra|]. apply qr_inj. rewrite K, qr_0. reflexivity.
Qed.
