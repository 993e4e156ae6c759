(** Concrete formulas and data used as cases beside the theorems. *)
From Coq Require Import List String QArith Qcanon Bool.
From Verif Require Import Num Base Signal QcTac Robust Transducer Spec StlSpec SigProof ReadProof SignalClaims TreeProof StlClaims.
Import ListNotations.
Local Open Scope string_scope.
Local Open Scope Qc_scope.

Definition iv (a b : Z) : interval Qc := mkI (mkB (q a) None) (mkB (q b) None).
(** Column [c] > 0. *)
Definition pos (c : nat) : fml Qc := FAtom (FSig "x" c) GREATERTHAN (FConst None (q 0)).
Definition env_of (d : list (list Qc)) : env Qc := mkEnv SPACE LINEAR (q 10000) d [].

Lemma mid : forall m M v1 v2 k : Qc, 0 <= k -> k <= 1 -> m <= v1 -> v1 <= M -> m <= v2 -> v2 <= M ->
  m <= v1 + (v2 - v1) * k /\ v1 + (v2 - v1) * k <= M.
Proof.
  intros m M v1 v2 k K0 K1 H1 H2 H3 H4.
  assert (A : forall x y : Qc, 0 <= x -> 0 <= y -> 0 <= x * y).
  { intros x y X Y. replace 0 with (0 * y) by ring. apply Qcmult_le_compat_r; auto. }
  pose proof (A (v1 - m) (1 - k) ltac:(qlra) ltac:(qlra)). pose proof (A (v2 - m) k ltac:(qlra) K0).
  pose proof (A (M - v1) (1 - k) ltac:(qlra) ltac:(qlra)). pose proof (A (M - v2) k ltac:(qlra) K0).
  assert (E1 : v1 + (v2 - v1) * k - m = (v1 - m) * (1 - k) + (v2 - m) * k) by ring.
  assert (E2 : M - (v1 + (v2 - v1) * k) = (M - v1) * (1 - k) + (M - v2) * k) by ring.
  split; qlra.
Qed.

Lemma linear_within : forall m M l t v, rising l -> Forall (fun p => m <= snd p /\ snd p <= M) l -> linear l t v -> m <= v /\ v <= M.
Proof.
  intros m M l t v R F L. destruct L as [t1 v1 l2 -> H|l1 t1 v1 t2 v2 l2 -> H1 H2|l1 tn vn -> H].
  - inversion F; auto.
  - apply Forall_app in F. destruct F as [_ F]. inversion F as [|? ? F1 F2]; subst. inversion F2 as [|? ? F3 _]; subst. cbn [snd] in *.
    assert (R' : t1 < t2).
    { clear -R. induction l1; cbn [app rising] in R; [|tauto]. destruct R as [R _]. inversion R; auto. }
    destruct F1, F3.
    replace ((v2 - v1) / (t2 - t1) * (t - t1)) with ((v2 - v1) * ((t - t1) / (t2 - t1))) by (field; intro C; qlra).
    assert (P : 0 < / (t2 - t1)).
    { apply Qcnot_le_lt. intros C. assert (X : / (t2 - t1) * (t2 - t1) <= 0 * (t2 - t1)) by (apply Qcmult_le_compat_r; auto; qlra).
      rewrite Qcmult_comm, Qcmult_inv_r in X by (intro C2; qlra). replace (0 * (t2 - t1)) with 0 in X by ring. qlra. }
    assert (K0 : 0 <= (t - t1) / (t2 - t1)).
    { unfold Qcdiv. replace 0 with (0 * / (t2 - t1)) by ring. apply Qcmult_le_compat_r; qlra. }
    assert (K1 : (t - t1) / (t2 - t1) <= 1).
    { replace 1 with ((t2 - t1) * / (t2 - t1)) by (apply Qcmult_inv_r; intro C; qlra). unfold Qcdiv. apply Qcmult_le_compat_r; qlra. }
    apply mid; auto.
  - apply Forall_app in F. destruct F as [_ F]. inversion F; auto.
Qed.

Lemma pos_within : forall d c M, rising (column d 0) -> Forall (fun r => - M <= nth c r 0 /\ nth c r 0 <= M) d ->
  within (eff (env_of d)) d M (pos c).
Proof.
  intros d c M R F t v H. cbn [pos rob expr operand] in H. destruct H as (a & b & A & -> & ->).
  assert (RC : rising (column d c)) by (eapply rising_times; [|exact R]; rewrite !times_column; reflexivity).
  apply linear_within with (m := - M) (M := M) in A; auto.
  - destruct A. change (eff (env_of d) None (q 0)) with 0. replace (a - 0) with a by ring. auto.
  - unfold column. apply Forall_forall. intros p I. apply in_map_iff in I. destruct I as (r & <- & I). rewrite Forall_forall in F. apply F; auto.
Qed.

(** Checking a concrete trace. *)
Fixpoint trace_b (w : nat) (d : list (list Qc)) : bool :=
  match d with
  | [] => true
  | r :: d' => (w <? List.length r)%nat && forallb (fun r' => nltb (row_time r) (row_time r')) d' && trace_b w d'
  end.
Lemma trace_check : forall w r d, trace_b w (r :: d) = true -> trace w (r :: d).
Proof.
  intros w r d H. split; [discriminate|]. revert H. generalize (r :: d). clear r d. intros d. 
  induction d as [|r d IH]; cbn [trace_b]; intros H; [split; constructor|].
  apply andb_prop in H. destruct H as [H H3]. apply andb_prop in H. destruct H as [H1 H2]. destruct (IH H3) as [I1 I2].
  split; [|constructor; auto; apply Nat.ltb_lt; auto].
  cbn [column map rising]. split; auto. apply Forall_forall. intros p I. apply in_map_iff in I. destruct I as (r' & <- & I).
  rewrite forallb_forall in H2. cbn [fst]. apply nltb_true. apply H2; auto.
Qed.

Lemma on_grid_q : forall z, on_grid (q 1) (q z).
Proof. intros z. exists z. symmetry. apply Qcmult_1_r. Qed.

Ltac qdec := first [vm_compute; reflexivity | vm_compute; discriminate].

(** alw_[0,2] ((x + y > 1) => ev_[0,2] (2*y - x > 0)), the data first up to 3, then up to 5. *)
Definition x_plus_y : fml Qc := FAtom (FPlus (FSig "x" 1) (FSig "y" 2)) GREATERTHAN (FConst None (q 1)).
Definition y_over_x : fml Qc := FAtom (FMinus (FMult (FConst None (q 2)) (FSig "y" 2)) (FSig "x" 1)) GREATERTHAN (FConst None (q 0)).
Definition mix : fml Qc := FAlw (iv 0 2) (FImp x_plus_y (FEv (iv 0 2) y_over_x)).
Definition mix_partial : list (list Qc) := [[q 0; q 1; q 3]; [q 1; q 4; q 1]; [q 2; q 3; q (-2)]; [q 3; q 5; q (-2)]].
Definition mix_more : list (list Qc) := [[q 4; q 1; q 2]; [q 5; q 3; q 6]].

Lemma mix_frag : forall d, afrag (bound_value (env_of d)) 2 mix.
Proof.
  intros d. cbn [afrag mix x_plus_y y_over_x expression affine fixed].
  repeat match goal with |- _ /\ _ => split end; first [exact I | qdec | left; split; exact I | repeat constructor].
Qed.
Lemma mix_trace : forall d, d = mix_partial \/ d = (mix_partial ++ mix_more)%list -> usual 2 (env_of d).
Proof. intros d [->| ->]; (split; [reflexivity|]; split; [reflexivity|]; apply trace_check; vm_compute; reflexivity). Qed.
Lemma column_within : forall d c m M t v, rising (column d 0) -> Forall (fun r => m <= nth c r 0 /\ nth c r 0 <= M) d ->
  linear (column d c) t v -> m <= v /\ v <= M.
Proof.
  intros d c m M t v R F A.
  assert (RC : rising (column d c)) by (eapply rising_times; [|exact R]; rewrite !times_column; reflexivity).
  apply linear_within with (m := m) (M := M) in A; auto.
  unfold column. apply Forall_forall. intros p I. apply in_map_iff in I. destruct I as (r & <- & I). rewrite Forall_forall in F. apply F; auto.
Qed.
Lemma mix_within : forall d, d = mix_partial \/ d = (mix_partial ++ mix_more)%list -> within (eff (env_of d)) d (q 10000) mix.
Proof.
  intros d D. pose proof (mix_trace d D) as (_ & _ & _ & R & _).
  assert (C1 : forall t v, linear (column d 1) t v -> q (-9) <= v /\ v <= q 9).
  { intros t v. apply column_within; auto. destruct D as [->| ->]; repeat constructor; qdec. }
  assert (C2 : forall t v, linear (column d 2) t v -> q (-9) <= v /\ v <= q 9).
  { intros t v. apply column_within; auto. destruct D as [->| ->]; repeat constructor; qdec. }
  cbn [within mix x_plus_y y_over_x rob expr operand]. split; intros t v H.
  - destruct H as (a & b & (x & y & X & Y & ->) & -> & ->). apply C1 in X. apply C2 in Y.
    change (eff (env_of d) None (q 1)) with (q 1). destruct X, Y.
    assert (q (-10000) <= q (-9) + q (-9) - q 1) by qdec. assert (q 9 + q 9 - q 1 <= q 10000) by qdec.
    change (- q 10000) with (q (-10000)). split; qlra.
  - destruct H as (a & b & (x & y & (k & z & -> & Z & ->) & Y & ->) & -> & ->). apply C2 in Z. apply C1 in Y.
    change (eff (env_of d) None (q 2)) with (1 + 1). change (eff (env_of d) None (q 0)) with 0. destruct Z, Y.
    assert (q (-10000) <= q (-9) + q (-9) - q 9) by qdec. assert (q 9 + q 9 - q (-9) <= q 10000) by qdec.
    change (- q 10000) with (q (-10000)). split; qlra.
Qed.
Lemma mix_regular : forall d, d = mix_partial \/ d = (mix_partial ++ mix_more)%list ->
  regular (eff (env_of d)) (bound_value (env_of d)) d mix 0 0.
Proof.
  intros d D. cbn [regular mix x_plus_y y_over_x]. split; [|split; [|split]].
  - intros _ C. discriminate C.
  - right. left. destruct D as [->| ->]; right; right; left; reflexivity.
  - intros _ _. left. exists (q 3). split; [|split; qdec]. destruct D as [->| ->]; right; right; right; left; reflexivity.
  - right. destruct D as [->| ->]; [right; qdec|left; do 4 right; left; reflexivity].
Qed.
Lemma mix_uncut : forall d, d = mix_partial \/ d = (mix_partial ++ mix_more)%list ->
  uncut (bound_value (env_of d)) (last_time d) mix 0 0.
Proof. intros d D. cbn [uncut mix x_plus_y y_over_x]. split; [exact I|]. destruct D as [->| ->]; qdec. Qed.
Lemma mix_grid : forall d, d = mix_partial \/ d = (mix_partial ++ mix_more)%list -> grid_ok (q 1) mix 0 0 (env_of d).
Proof.
  intros d D. split; [qdec|]. split.
  - cbn [gridded mix x_plus_y y_over_x]. split; [apply (on_grid_q 0)|]. split; [apply (on_grid_q 2)|]. split; [exact I|].
    split; [apply (on_grid_q 0)|]. split; [apply (on_grid_q 2)|exact I].
  - split; [apply (on_grid_q 0)|]. split; [apply (on_grid_q 0)|]. destruct D as [->| ->]; [apply (on_grid_q 3)|apply (on_grid_q 5)].
Qed.

(** Reading off values of column [c] > 0. *)
Lemma pos_value : forall d c u v, rising (column d 0) -> rob (eff (env_of d)) (bound_value (env_of d)) d (pos c) u v ->
  v = interp (column d c) u.
Proof.
  intros d c u v R H. cbn [pos rob expr operand] in H. destruct H as (a & b & A & -> & ->).
  change (eff (env_of d) None (q 0)) with 0. replace (a - 0) with a by ring. apply linear_interp; auto.
  eapply rising_times; [|exact R]. rewrite !times_column. reflexivity.
Qed.

(** ev_[0,3] ((ev_[0,1] x > 0) and y > 0), with x rising and y falling. *)
Definition cut_ramp : fml Qc := FEv (iv 0 3) (FAnd (FEv (iv 0 1) (pos 1)) (pos 2)).
Definition cr_data : list (list Qc) := [[q 0; q 0; q 3]; [q 10; q 10; q (-7)]].

Lemma cr_usual : usual 2 (env_of cr_data).
Proof. split; [reflexivity|]. split; [reflexivity|]. apply trace_check. vm_compute. reflexivity. Qed.
Lemma cr_frag : frag (bound_value (env_of cr_data)) 2 cut_ramp.
Proof.
  cbn [frag cut_ramp pos simple_operand]. repeat match goal with |- _ /\ _ => split end; first [exact I | qdec | repeat constructor].
Qed.
Lemma cr_within : within (eff (env_of cr_data)) cr_data (q 10000) cut_ramp.
Proof.
  pose proof cr_usual as (_ & _ & _ & R & _). cbn [within cut_ramp].
  split; apply pos_within; auto; repeat constructor; qdec.
Qed.
Lemma cr_rob : forall v, rob (eff (env_of cr_data)) (bound_value (env_of cr_data)) cr_data cut_ramp 0 v -> q 2 <= v.
Proof.
  intros v H. pose proof cr_usual as (_ & _ & _ & R & _). cbn [e_data env_of] in R.
  destruct H as (g & G & [S _]).
  destruct (G 1) as (a & b & A & B & C); try qdec.
  apply Qcle_trans with (g 1); [|apply S; qdec]. rewrite C.
  destruct A as (h & A & [A1 _]).
  pose proof (A1 (q 2) ltac:(qdec) ltac:(qdec)) as A2.
  rewrite (pos_value _ _ _ _ R (A (q 2) ltac:(qdec) ltac:(qdec))) in A2.
  apply (pos_value _ _ _ _ R) in B. subst b.
  replace (interp (column cr_data 1) (q 2)) with (q 2) in A2 by qdec.
  replace (interp (column cr_data 2) 1) with (q 2) by qdec.
  unfold qmin. destruct (Qclt_le_dec (q 2) a); [apply Qcle_refl|exact A2].
Qed.

Lemma cr_numbers : exists r lo up, numbers (evaluate (env_of cr_data) (build cut_ramp) 0 0) = Ok (r, lo, up) /\
  r < q 2 /\ ~ r = up.
Proof. do 3 eexists. split; [vm_compute; reflexivity|]. split; qdec. Qed.

(** A horizon that starts after the last sample: alw_[3,4] x > 0. *)
Definition late_alw : fml Qc := FAlw (iv 3 4) (pos 1).
Definition la_data : list (list Qc) := [[q 0; q 1]; [q 1; q 1]].
Definition la_more : list (list Qc) := [[q 5; q 1]].

Lemma la_usual : usual 1 (env_of la_data) /\ usual 1 (env_of (la_data ++ la_more)).
Proof. split; (split; [reflexivity|]; split; [reflexivity|]; apply trace_check; vm_compute; reflexivity). Qed.
Lemma la_frag : forall d, frag (bound_value (env_of d)) 1 late_alw.
Proof.
  intros d. cbn [frag late_alw pos simple_operand].
  repeat match goal with |- _ /\ _ => split end; first [exact I | qdec | repeat constructor].
Qed.
Lemma la_within : forall d, d = la_data \/ d = (la_data ++ la_more)%list -> within (eff (env_of d)) d (q 10000) late_alw.
Proof.
  intros d D. cbn [within late_alw]. destruct la_usual as [(_ & _ & _ & R1 & _) (_ & _ & _ & R2 & _)].
  destruct D as [->| ->]; apply pos_within; auto; repeat constructor; qdec.
Qed.
Lemma la_extends : extends (env_of la_data) (env_of (la_data ++ la_more)).
Proof. do 4 (split; [reflexivity|]). exists la_more. reflexivity. Qed.
Lemma la_numbers : numbers (evaluate (env_of la_data) (build late_alw) 0 0) = Ok (q 1, q (-10000), q (-10000)) /\
  numbers (evaluate (env_of (la_data ++ la_more)) (build late_alw) 0 0) = Ok (q 1, q 1, q 1).
Proof. split; vm_compute; reflexivity. Qed.
Lemma la_rob : rob (eff (env_of (la_data ++ la_more))) (bound_value (env_of (la_data ++ la_more))) (la_data ++ la_more) late_alw 0 (q 1).
Proof.
  destruct la_usual as [_ U].
  destruct (exact_rob 1 _ U (build late_alw) late_alw 0 0 eq_refl (frag_afrag _ _ _ (la_frag _))) as (v & t' & H & R); [qdec|qdec|qdec| | |].
  - apply la_within. auto.
  - cbn [regular late_alw pos]. split; [|left; split; exact I]. intros _ C. discriminate C.
  - assert (X : match compute_rob (env_of (la_data ++ la_more)) (prepare (env_of (la_data ++ la_more)) (build late_alw) 0 0) with
                | Ok (v, _) => Some v | _ => None end = Some (q 1)) by (vm_compute; reflexivity).
    rewrite H in X. replace (q 1) with v by congruence. exact R.
Qed.

(** A long evaluation interval over an atom: alw_[0,10] ev_[0,1] x > 0. *)
Definition long_ev : fml Qc := FAlw (iv 0 10) (FEv (iv 0 1) (pos 1)).
Definition le_data : list (list Qc) := [[q 0; q 1]; [q 1; q (-1)]; [q 2; q 1]; [q 3; q (-5)]; [q 20; q 1]].
Lemma le_usual : usual 1 (env_of le_data).
Proof. split; [reflexivity|]; split; [reflexivity|]; apply trace_check; vm_compute; reflexivity. Qed.
Lemma le_frag : frag (bound_value (env_of le_data)) 1 long_ev.
Proof.
  cbn [frag long_ev pos simple_operand].
  repeat match goal with |- _ /\ _ => split end; first [exact I | qdec | repeat constructor].
Qed.
Lemma le_within : within (eff (env_of le_data)) le_data (q 10000) long_ev.
Proof.
  cbn [within long_ev]. destruct le_usual as (_ & _ & _ & R & _). apply pos_within; auto; repeat constructor; qdec.
Qed.
Lemma le_regular : regular (eff (env_of le_data)) (bound_value (env_of le_data)) le_data long_ev 0 0.
Proof.
  cbn [regular long_ev pos]. split; [intros _ C; discriminate C|]. split; [|left; split; exact I].
  intros _ _. left. exists (q 2). split; [|split; qdec]. right. right. left. reflexivity.
Qed.
Lemma le_grid : grid_ok (q 1) long_ev 0 0 (env_of le_data).
Proof.
  split; [qdec|]. split.
  - cbn [gridded long_ev pos]. split; [apply (on_grid_q 0)|]. split; [apply (on_grid_q 10)|].
    split; [apply (on_grid_q 0)|]. split; [apply (on_grid_q 1)|exact I].
  - split; [apply (on_grid_q 0)|]. split; [apply (on_grid_q 0)|]. apply (on_grid_q 20).
Qed.
Lemma le_numbers : exists r lo up, numbers (evaluate (env_of le_data) (build long_ev) 0 0) = Ok (r, lo, up) /\
  r < lo /\ rob (eff (env_of le_data)) (bound_value (env_of le_data)) le_data long_ev 0 r.
Proof.
  destruct (exact_rob 1 _ le_usual (build long_ev) long_ev 0 0 eq_refl (frag_afrag _ _ _ le_frag)) as (v & t' & H & R); [qdec|qdec|qdec| | |].
  - apply le_within.
  - apply le_regular.
  - do 3 eexists. split; [vm_compute; reflexivity|]. split; [qdec|].
    assert (X : match compute_rob (env_of le_data) (prepare (env_of le_data) (build long_ev) 0 0) with
                | Ok (v, _) => Some v | _ => None end = Some (Q2Qc (-14 # 3))) by (vm_compute; reflexivity).
    rewrite H in X. assert (XV : v = Q2Qc (-14 # 3)) by congruence. rewrite XV in R. exact R.
Qed.

(** Values below -BigM: ev_[0,1] x > 0. *)
Definition short_ev : fml Qc := FEv (iv 0 1) (pos 1).
Definition low_data : list (list Qc) := [[q 0; q (-20000)]; [q 1; q (-20000)]].
Lemma low_usual : usual 1 (env_of low_data).
Proof. split; [reflexivity|]; split; [reflexivity|]; apply trace_check; vm_compute; reflexivity. Qed.
Lemma se_frag : forall d, frag (bound_value (env_of d)) 1 short_ev.
Proof.
  intros d. cbn [frag short_ev pos simple_operand].
  repeat match goal with |- _ /\ _ => split end; first [exact I | qdec | repeat constructor].
Qed.
Lemma low_numbers : numbers (evaluate (env_of low_data) (build short_ev) 0 0) = Ok (q (-10000), q (-10000), q (-10000)).
Proof. vm_compute. reflexivity. Qed.
Lemma low_rob : ~ rob (eff (env_of low_data)) (bound_value (env_of low_data)) low_data short_ev 0 (q (-10000)).
Proof.
  intros (g & G & [_ S]). destruct low_usual as (_ & _ & _ & R & _). cbn [e_data env_of] in R.
  specialize (S (q (-20000))). apply (Qclt_not_le (q (-20000)) (q (-10000))); [qdec|]. apply S. intros u U1 U2.
  pose proof (G u U1 U2) as P. cbn [pos rob expr operand] in P. destruct P as (a & b & A & -> & ->).
  change (eff (env_of low_data) None (q 0)) with 0. replace (a - 0) with a by ring.
  apply (linear_within (q (-20000)) (q (-20000))) in A; [apply A| |repeat constructor; qdec].
  eapply rising_times; [|exact R]. rewrite !times_column. reflexivity.
Qed.

(** Data that ends less than 1e-14 before the end of the horizon. *)
Definition close_data : list (list Qc) := [[q 0; q 0]; [Q2Qc (999999999999999 # 1000000000000000); q 0]].
Definition close_more : list (list Qc) := [[q 2; q 5]].
Lemma cl_usual : usual 1 (env_of close_data) /\ usual 1 (env_of (close_data ++ close_more)).
Proof. split; (split; [reflexivity|]; split; [reflexivity|]; apply trace_check; vm_compute; reflexivity). Qed.
Lemma cl_within : within (eff (env_of (close_data ++ close_more))) (close_data ++ close_more) (q 10000) short_ev.
Proof. cbn [within short_ev]. destruct cl_usual as [_ (_ & _ & _ & R & _)]. apply pos_within; auto; repeat constructor; qdec. Qed.
Lemma cl_regular : regular (eff (env_of close_data)) (bound_value (env_of close_data)) close_data short_ev 0 0.
Proof. cbn [regular short_ev pos]. split; [|left; split; exact I]. intros _ C. discriminate C. Qed.
Lemma cl_numbers : numbers (evaluate (env_of close_data) (build short_ev) 0 0) = Ok (0, 0, 0).
Proof. vm_compute. reflexivity. Qed.
Lemma cl_rob : exists v, rob (eff (env_of (close_data ++ close_more))) (bound_value (env_of (close_data ++ close_more))) (close_data ++ close_more) short_ev 0 v /\ 0 < v.
Proof.
  destruct cl_usual as [_ U].
  destruct (exact_rob 1 _ U (build short_ev) short_ev 0 0 eq_refl (frag_afrag _ _ _ (se_frag _))) as (v & t' & H & R); [qdec|qdec|qdec| | |].
  - apply cl_within.
  - cbn [regular short_ev pos]. split; [|left; split; exact I]. intros _ C. discriminate C.
  - exists v. split; [exact R|].
    assert (X : match compute_rob (env_of (close_data ++ close_more)) (prepare (env_of (close_data ++ close_more)) (build short_ev) 0 0) with
                | Ok (v, _) => nltb 0 v | _ => false end = true) by (vm_compute; reflexivity).
    rewrite H in X. apply nltb_true. exact X.
Qed.

(** ** The refutations *)
Lemma ramp_refuted : exists E f, usual 2 E /\ frag (bound_value E) 2 f /\ covers (bound_value E) (last_time (e_data E)) f 0 /\
  within (eff E) (e_data E) (e_M E) f /\
  exists r lo up, numbers (evaluate E (build f) 0 0) = Ok (r, lo, up) /\ ~ rob (eff E) (bound_value E) (e_data E) f 0 r.
Proof.
  exists (env_of cr_data), cut_ramp. split; [apply cr_usual|]. split; [apply cr_frag|]. split; [split; qdec|]. split; [apply cr_within|].
  destruct cr_numbers as (r & lo & up & N & L & _). exists r, lo, up. split; [exact N|]. intros C. apply cr_rob in C.
  apply (Qclt_not_le _ _ L C).
Qed.
Lemma low_refuted : exists E f, usual 1 E /\ frag (bound_value E) 1 f /\
  covers (bound_value E) (last_time (e_data E)) f 0 /\ regular (eff E) (bound_value E) (e_data E) f 0 0 /\
  exists r lo up, numbers (evaluate E (build f) 0 0) = Ok (r, lo, up) /\ ~ rob (eff E) (bound_value E) (e_data E) f 0 r.
Proof.
  exists (env_of low_data), short_ev. split; [apply low_usual|]. split; [apply se_frag|]. split; [qdec|].
  split; [split; [intros _ C; discriminate C|left; split; exact I]|]. do 3 eexists. split; [apply low_numbers|]. apply low_rob.
Qed.
Lemma long_refuted : exists E f, usual 1 E /\ frag (bound_value E) 1 f /\ covers (bound_value E) (last_time (e_data E)) f 0 /\
  within (eff E) (e_data E) (e_M E) f /\ regular (eff E) (bound_value E) (e_data E) f 0 0 /\
  exists r lo up, numbers (evaluate E (build f) 0 0) = Ok (r, lo, up) /\ r <> lo.
Proof.
  exists (env_of le_data), long_ev. split; [apply le_usual|]. split; [apply le_frag|]. split; [qdec|]. split; [apply le_within|].
  split; [apply le_regular|]. destruct le_numbers as (r & lo & up & N & L & _). exists r, lo, up. split; [exact N|].
  intros C. rewrite C in L. apply (Qclt_not_le _ _ L (Qcle_refl _)).
Qed.
Lemma late_refuted : exists E E' f, usual 1 E' /\ e_data E <> [] /\ extends E E' /\ frag (bound_value E) 1 f /\
  within (eff E) (e_data E') (e_M E) f /\ regular (eff E) (bound_value E) (e_data E) f 0 0 /\
  uncut (bound_value E) (last_time (e_data E)) f 0 0 /\ grid_ok (q 1) f 0 0 E /\
  covers (bound_value E) (last_time (e_data E')) f 0 /\
  exists r lo up v, numbers (evaluate E (build f) 0 0) = Ok (r, lo, up) /\
    rob (eff E) (bound_value E) (e_data E') f 0 v /\ up < v.
Proof.
  exists (env_of la_data), (env_of (la_data ++ la_more)), late_alw. split; [apply la_usual|]. split; [discriminate|].
  split; [apply la_extends|]. split; [apply la_frag|]. split; [apply (la_within (la_data ++ la_more)); auto|].
  split; [split; [intros _ C; discriminate C|left; split; exact I]|]. split; [exact I|]. split.
  - split; [qdec|]. split; [split; [apply (on_grid_q 3)|]; split; [apply (on_grid_q 4)|exact I]|].
    split; [apply (on_grid_q 0)|]. split; [apply (on_grid_q 0)|apply (on_grid_q 1)].
  - split; [qdec|]. do 4 eexists. split; [apply la_numbers|]. split; [apply la_rob|]. qdec.
Qed.
Lemma cut_refuted : exists E f, usual 1 E /\ frag (bound_value E) 1 f /\
  started (bound_value E) (last_time (e_data E)) f 0 /\ within (eff E) (e_data E) (e_M E) f /\
  regular (eff E) (bound_value E) (e_data E) f 0 0 /\ grid_ok (q 1) f 0 0 E /\
  covers (bound_value E) (last_time (e_data E)) f 0 /\
  exists r lo up v, numbers (evaluate E (build f) 0 0) = Ok (r, lo, up) /\
    rob (eff E) (bound_value E) (e_data E) f 0 v /\ v < lo.
Proof.
  exists (env_of le_data), long_ev. split; [apply le_usual|]. split; [apply le_frag|]. split; [qdec|]. split; [apply le_within|].
  split; [apply le_regular|]. split; [apply le_grid|]. split; [qdec|].
  destruct le_numbers as (r & lo & up & N & L & R). exists r, lo, up, r. auto.
Qed.
Lemma close_refuted : exists E E' f, usual 1 E' /\ e_data E <> [] /\ extends E E' /\ frag (bound_value E) 1 f /\
  started (bound_value E) (last_time (e_data E)) f 0 /\ within (eff E) (e_data E') (e_M E) f /\
  regular (eff E) (bound_value E) (e_data E) f 0 0 /\ uncut (bound_value E) (last_time (e_data E)) f 0 0 /\
  covers (bound_value E) (last_time (e_data E')) f 0 /\
  exists r lo up v, numbers (evaluate E (build f) 0 0) = Ok (r, lo, up) /\
    rob (eff E) (bound_value E) (e_data E') f 0 v /\ up < v.
Proof.
  exists (env_of close_data), (env_of (close_data ++ close_more)), short_ev. split; [apply cl_usual|]. split; [discriminate|].
  split; [do 4 (split; [reflexivity|]); exists close_more; reflexivity|]. split; [apply se_frag|]. split; [qdec|].
  split; [apply cl_within|]. split; [apply cl_regular|]. split; [qdec|]. split; [qdec|].
  destruct cl_rob as (v & R & P). exists 0, 0, 0, v. split; [apply cl_numbers|]. auto.
Qed.
Lemma late_order_refuted : exists E f, usual 1 E /\ frag (bound_value E) 1 f /\ within (eff E) (e_data E) (e_M E) f /\
  exists r lo up, numbers (evaluate E (build f) 0 0) = Ok (r, lo, up) /\ up < r.
Proof.
  exists (env_of la_data), late_alw. split; [apply la_usual|]. split; [apply la_frag|].
  split; [apply (la_within la_data); auto|]. do 3 eexists. split; [apply la_numbers|]. qdec.
Qed.
Lemma long_order_refuted : exists E f, usual 1 E /\ frag (bound_value E) 1 f /\ within (eff E) (e_data E) (e_M E) f /\
  covers (bound_value E) (last_time (e_data E)) f 0 /\
  exists r lo up, numbers (evaluate E (build f) 0 0) = Ok (r, lo, up) /\ r < lo.
Proof.
  exists (env_of le_data), long_ev. split; [apply le_usual|]. split; [apply le_frag|]. split; [apply le_within|]. split; [qdec|].
  destruct le_numbers as (r & lo & up & N & L & _). exists r, lo, up. auto.
Qed.
Lemma late_refine_refuted : exists E E' f, usual 1 E' /\ e_data E <> [] /\ extends E E' /\ frag (bound_value E) 1 f /\
  within (eff E) (e_data E') (e_M E) f /\
  exists r lo up r' lo' up', numbers (evaluate E (build f) 0 0) = Ok (r, lo, up) /\
    numbers (evaluate E' (build f) 0 0) = Ok (r', lo', up') /\ up < up'.
Proof.
  exists (env_of la_data), (env_of (la_data ++ la_more)), late_alw. split; [apply la_usual|]. split; [discriminate|].
  split; [apply la_extends|]. split; [apply la_frag|]. split; [apply (la_within (la_data ++ la_more)); auto|].
  do 6 eexists. split; [apply la_numbers|]. split; [apply la_numbers|]. qdec.
Qed.

(** An estimate above BigM: ev_[0,2] ((x > 0 => alw_[2,2] not x > 0) or x > 0) on data that
    ends at 2. *)
Definition steep : fml Qc := FEv (iv 0 2) (FOr (FImp (pos 1) (FAlw (iv 2 2) (FNot (pos 1)))) (pos 1)).
Definition steep_data : list (list Qc) := [[q 0; q 2000]; [q 1; q (-6000)]; [q 2; q 10000]].
Lemma steep_usual : usual 1 (env_of steep_data).
Proof. split; [reflexivity|]; split; [reflexivity|]; apply trace_check; vm_compute; reflexivity. Qed.
Lemma steep_frag : frag (bound_value (env_of steep_data)) 1 steep.
Proof.
  cbn [frag steep pos simple_operand].
  repeat match goal with |- _ /\ _ => split end; first [exact I | qdec | repeat constructor].
Qed.
Lemma steep_within : within (eff (env_of steep_data)) steep_data (q 10000) steep.
Proof.
  assert (P : within (eff (env_of steep_data)) steep_data (q 10000) (pos 1)).
  { destruct steep_usual as (_ & _ & _ & R & _). apply pos_within; auto. repeat constructor; qdec. }
  cbn [within steep]. split; [split; exact P|exact P].
Qed.
Lemma steep_numbers : numbers (evaluate (env_of steep_data) (build steep) 0 0) = Ok (q 14000, q 2000, q 10000).
Proof. vm_compute; reflexivity. Qed.
Lemma steep_refuted : exists E f, usual 1 E /\ frag (bound_value E) 1 f /\ within (eff E) (e_data E) (e_M E) f /\ 0 <= e_M E /\
  exists r lo up, numbers (evaluate E (build f) 0 0) = Ok (r, lo, up) /\ e_M E < r.
Proof.
  exists (env_of steep_data), steep. split; [apply steep_usual|]. split; [apply steep_frag|]. split; [apply steep_within|].
  split; [qdec|]. do 3 eexists. split; [apply steep_numbers|]. qdec.
Qed.
