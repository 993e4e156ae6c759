(** Cases and counterexamples for until in formulas. *)
From Coq Require Import List String QArith Qcanon Bool.
From Verif Require Import Num Base Signal QcTac Robust Transducer Spec StlSpec SignalClaims ReadProof TreeProof StlClaims WithinTree Witness UntilTree.
Import ListNotations.
Local Open Scope string_scope.
Local Open Scope Qc_scope.

(** (x + y > 1 until_[1,3] 2 y > x) and not (2 y > x until_[0,2] x + y > 1) => alw_[0,1] 2 y > x *)
Definition pact : fml Qc :=
  FImp (FAnd (FUntil x_plus_y (iv 1 3) y_over_x) (FNot (FUntil y_over_x (iv 0 2) x_plus_y))) (FAlw (iv 0 1) y_over_x).
Definition pact_data : list (list Qc) := (mix_partial ++ mix_more)%list.

Lemma pact_frag : ufrag (bound_value (env_of pact_data)) 2 pact.
Proof.
  cbn [ufrag afrag pact x_plus_y y_over_x expression affine fixed].
  repeat match goal with |- _ /\ _ => split end; first [exact I | qdec | left; split; exact I | repeat constructor].
Qed.
Lemma mix_parts : forall d, d = mix_partial \/ d = (mix_partial ++ mix_more)%list ->
  within (eff (env_of d)) d (q 100) x_plus_y /\ within (eff (env_of d)) d (q 100) y_over_x.
Proof.
  intros d D. pose proof (mix_trace d D) as (_ & _ & _ & R & _).
  assert (C1 : forall t v, linear (column d 1) t v -> q (-9) <= v /\ v <= q 9).
  { intros t v. apply column_within; auto. destruct D as [->| ->]; repeat constructor; qdec. }
  assert (C2 : forall t v, linear (column d 2) t v -> q (-9) <= v /\ v <= q 9).
  { intros t v. apply column_within; auto. destruct D as [->| ->]; repeat constructor; qdec. }
  cbn [within x_plus_y y_over_x rob expr operand]. split; intros t v H.
  - destruct H as (a & b & (x & y & X & Y & ->) & -> & ->). apply C1 in X. apply C2 in Y.
    change (eff (env_of d) None (q 1)) with (q 1). destruct X, Y.
    assert (q (-100) <= q (-9) + q (-9) - q 1) by qdec. assert (q 9 + q 9 - q 1 <= q 100) by qdec.
    change (- q 100) with (q (-100)). split; qlra.
  - destruct H as (a & b & (x & y & (k & z & -> & Z & ->) & Y & ->) & -> & ->). apply C2 in Z. apply C1 in Y.
    change (eff (env_of d) None (q 2)) with (1 + 1). change (eff (env_of d) None (q 0)) with 0. destruct Z, Y.
    assert (q (-100) <= q (-9) + q (-9) - q 9) by qdec. assert (q 9 + q 9 - q (-9) <= q 100) by qdec.
    change (- q 100) with (q (-100)). split; qlra.
Qed.
Lemma pact_within : within (eff (env_of pact_data)) pact_data (q 100) pact.
Proof. destruct (mix_parts pact_data (or_intror eq_refl)). cbn [within pact]. auto 6. Qed.
Lemma pact_regular : regular (eff (env_of pact_data)) (bound_value (env_of pact_data)) pact_data pact 0 0.
Proof.
  cbn [regular pact x_plus_y y_over_x].
  assert (R1 : In (0 + bound_value (env_of pact_data) (iend (iv 0 1))) (map row_time pact_data)) by (do 1 right; left; apply Qc_is_canon; vm_compute; reflexivity).
  assert (R2 : In (0 + bound_value (env_of pact_data) (iend (iv 0 2))) (map row_time pact_data)) by (do 2 right; left; apply Qc_is_canon; vm_compute; reflexivity).
  assert (R3 : In (0 + bound_value (env_of pact_data) (iend (iv 1 3))) (map row_time pact_data)) by (do 3 right; left; apply Qc_is_canon; vm_compute; reflexivity).
  split; [split; split; right; left; assumption|]. split; [|right; left; assumption].
  intros _ C. discriminate C.
Qed.
Lemma pact_numbers : numbers (evaluate (env_of pact_data) (build pact) 0 0) = Ok (Q2Qc (13 # 4), Q2Qc (13 # 4), Q2Qc (13 # 4)).
Proof. vm_compute. reflexivity. Qed.
Lemma pact_covers : covers (bound_value (env_of pact_data)) (last_time pact_data) pact 0.
Proof. cbn [covers pact x_plus_y y_over_x]. repeat split; qdec. Qed.

(** (x + y > 1 or alw_[0,1] not 2 y > x) until_[1,2] (ev_[0,1] 2 y > x and (x + y > 1 => 2 y > x)) *)
Definition deal : fml Qc :=
  FUntil (FOr x_plus_y (FAlw (iv 0 1) (FNot y_over_x))) (iv 1 2) (FAnd (FEv (iv 0 1) y_over_x) (FImp x_plus_y y_over_x)).
Lemma deal_frag : ufrag (bound_value (env_of pact_data)) 2 deal.
Proof.
  cbn [ufrag afrag deal x_plus_y y_over_x expression affine fixed].
  repeat match goal with |- _ /\ _ => split end; first [exact I | qdec | left; split; exact I | repeat constructor].
Qed.
Lemma deal_within : within (eff (env_of pact_data)) pact_data (q 100) deal.
Proof. destruct (mix_parts pact_data (or_intror eq_refl)). cbn [within deal]. auto 6. Qed.
Lemma deal_regular : regular (eff (env_of pact_data)) (bound_value (env_of pact_data)) pact_data deal 0 0.
Proof.
  cbn [regular settled deal x_plus_y y_over_x].
  assert (R2 : In (0 + bound_value (env_of pact_data) (iend (iv 1 2))) (map row_time pact_data)) by (do 2 right; left; apply Qc_is_canon; vm_compute; reflexivity).
  assert (R3 : In (0 + bound_value (env_of pact_data) (iend (iv 1 2)) + bound_value (env_of pact_data) (iend (iv 0 1))) (map row_time pact_data)) by (do 3 right; left; apply Qc_is_canon; vm_compute; reflexivity).
  repeat match goal with |- _ /\ _ => split end; try (right; left; assumption); intros _ _; left;
    (eexists; split; [exact R3|]; split; qdec).
Qed.
Lemma deal_covers : covers (bound_value (env_of pact_data)) (last_time pact_data) deal 0.
Proof. cbn [covers deal x_plus_y y_over_x]. repeat split; qdec. Qed.
Lemma deal_uncut : uncut (bound_value (env_of pact_data)) (last_time pact_data) deal 0 0.
Proof. cbn [uncut deal x_plus_y y_over_x]. repeat match goal with |- _ /\ _ => split end; first [exact I|qdec]. Qed.

(** The window [1,1]: the operands of until are signals on [0,1] and on [1,1], and the
    loop that drops the samples at the end runs out of them. *)
Definition above : fml Qc := FAtom (FSig "x" 1) GREATERTHAN (FConst None (q (-20))).
Definition at_once : fml Qc := FUntil above (iv 1 1) (pos 1).
Definition vee_data : list (list Qc) := [[q 0; q 4]; [q 2; q 0]; [q 10; q 8]].

Lemma vee_usual : usual 1 (env_of vee_data).
Proof. split; [reflexivity|]. split; [reflexivity|]. apply trace_check. vm_compute. reflexivity. Qed.
Lemma vee_value : forall t v, rob (eff (env_of vee_data)) (bound_value (env_of vee_data)) vee_data (pos 1) t v ->
  v = interp (column vee_data 1) t.
Proof. intros t v H. destruct vee_usual as (_ & _ & _ & R & _). eapply pos_value; [exact R|exact H]. Qed.


Lemma vee_high : forall u, (0 <= u -> u <= 1 -> q 2 <= interp (column vee_data 1) u) /\
  (q 4 <= u -> u <= q 10 -> q 2 <= interp (column vee_data 1) u).
Proof.
  intros u. change (column vee_data 1) with [(q 0, q 4); (q 2, q 0); (q 10, q 8)]. cbn [interp].
  assert (C1 : (q 0 - q 4) / (q 2 - q 0) = - (1 + 1)) by (apply Qc_is_canon; vm_compute; reflexivity). rewrite C1.
  assert (C2 : (q 8 - q 0) / (q 10 - q 2) = 1) by (apply Qc_is_canon; vm_compute; reflexivity). rewrite C2.
  assert (Z0 : q 0 = 0) by reflexivity. assert (Z2 : q 2 = 1 + 1) by (apply Qc_is_canon; vm_compute; reflexivity). assert (Z4 : q 4 = 1 + 1 + 1 + 1) by (apply Qc_is_canon; vm_compute; reflexivity).
  assert (Z8 : q 4 < q 8) by qdec. assert (Z10 : q 8 < q 10) by qdec. rewrite Z0, Z2, Z4 in *.
  destruct (Qclt_le_dec 0 u) as [B1|B1]; [destruct (Qclt_le_dec (1 + 1) u) as [B2|B2]; [destruct (Qclt_le_dec (q 10) u) as [B3|B3]|]|]; split; intros; qlra.
Qed.
Lemma vee_within : forall f, f = above \/ f = pos 1 -> within (eff (env_of vee_data)) vee_data (q 100) f.
Proof.
  intros f F. pose proof vee_usual as (_ & _ & _ & R & _). cbn [e_data env_of] in R.
  assert (C : forall t v, linear (column vee_data 1) t v -> q 0 <= v /\ v <= q 8).
  { intros t v. apply column_within; auto. repeat constructor; qdec. }
  destruct F as [->| ->]; cbn [within above pos rob expr operand]; intros t v (a & b & A & -> & ->); apply C in A; destruct A;
    [change (eff (env_of vee_data) None (q (-20))) with (q (-20))|change (eff (env_of vee_data) None (q 0)) with (q 0)].
  - assert (- q 100 <= q 0 - q (-20)) by qdec. assert (q 8 - q (-20) <= q 100) by qdec. split; qlra.
  - assert (- q 100 <= q 0 - q 0) by qdec. assert (q 8 - q 0 <= q 100) by qdec. split; qlra.
Qed.

Lemma instant_refuted : exists E f, usual 1 E /\ covers (bound_value E) (last_time (e_data E)) f 0 /\
  within (eff E) (e_data E) (q 100) f /\ q 100 < e_M E /\ regular (eff E) (bound_value E) (e_data E) f 0 0 /\
  (exists l i r, f = FUntil l i r /\ 0 <= bound_value E (ibegin i) /\ bound_value E (ibegin i) <= bound_value E (iend i) /\
     comparison 1 l /\ comparison 1 r) /\
  evaluate E (build f) 0 0 = UB.
Proof.
  exists (env_of vee_data), at_once. split; [exact vee_usual|]. split; [cbn [covers at_once above pos]; repeat split; qdec|].
  split; [split; apply vee_within; auto|]. split; [qdec|]. split; [split; left; split; exact I|].
  split; [|vm_compute; reflexivity].
  exists above, (iv 1 1), (pos 1). split; [reflexivity|]. split; [qdec|]. split; [qdec|].
  cbn [above pos affine]. repeat split; repeat constructor.
Qed.

(** The least value over [0,2] of an until that is given up too early. *)
Definition hold_on : fml Qc := FUntil above (iv 0 3) (pos 1).
Definition nested : fml Qc := FAlw (iv 0 2) hold_on.

Lemma hold_on_rob : forall u v, 0 <= u -> u <= q 2 -> rob (eff (env_of vee_data)) (bound_value (env_of vee_data)) vee_data hold_on u v -> q 2 <= v.
Proof.
  intros u v U1 U2 (gl & gr & h & L & Rr & H & [Sup _]).
  pose proof vee_usual as (_ & _ & _ & R & _). cbn [e_data env_of] in R.
  change (bound_value (env_of vee_data) (ibegin (iv 0 3))) with (q 0) in *.
  change (bound_value (env_of vee_data) (iend (iv 0 3))) with (q 3) in *.
  assert (N3 : q 0 < q 3) by qdec. assert (Z0 : q 0 = 0) by reflexivity.
  assert (K : forall t, u + q 0 <= t -> t <= u + q 3 -> q 2 <= interp (column vee_data 1) t -> q 2 <= v).
  { intros t T1 T2 T3. eapply Qcle_trans; [|exact (Sup t T1 T2)]. rewrite (vee_value _ _ (Rr t T1 T2)).
    assert (Hh : q 2 <= h t).
    { apply (H t T1 T2). intros w W1 W2. specialize (L w W1 ltac:(qlra)). cbn [above rob expr operand] in L.
      destruct L as (a & b & A & -> & ->). change (eff (env_of vee_data) None (q (-20))) with (q (-20)).
      assert (B : q 0 <= a /\ a <= q 8) by (revert A; apply column_within; [exact R|repeat constructor; qdec]).
      assert (q 2 <= q 0 - q (-20)) by qdec. destruct B. qlra. }
    unfold qmin. destruct (Qclt_le_dec _ _); auto. }
  assert (Z1 : q 3 + 1 = q 4) by (apply Qc_is_canon; vm_compute; reflexivity). assert (Z2 : q 3 + q 2 <= q 10) by qdec.
  destruct (Qclt_le_dec u 1) as [C|C].
  - apply (K u); try qlra. apply (proj1 (vee_high u)); qlra.
  - apply (K (u + q 3)); try qlra. apply (proj2 (vee_high (u + q 3))); qlra.
Qed.
Lemma nested_rob : forall v, rob (eff (env_of vee_data)) (bound_value (env_of vee_data)) vee_data nested 0 v -> q 2 <= v.
Proof.
  intros v (g & G & [_ S]). apply S. intros u U1 U2. apply (hold_on_rob u); [exact U1|exact U2|]. exact (G u U1 U2).
Qed.
Lemma nested_refuted : exists E f, usual 1 E /\ covers (bound_value E) (last_time (e_data E)) f 0 /\
  within (eff E) (e_data E) (q 100) f /\ q 100 < e_M E /\ regular (eff E) (bound_value E) (e_data E) f 0 0 /\
  (exists i c, f = FAlw i c /\ 0 <= bound_value E (ibegin i) /\ bound_value E (ibegin i) <= bound_value E (iend i) /\ ufrag (bound_value E) 1 c) /\
  exists r lo up, numbers (evaluate E (build f) 0 0) = Ok (r, lo, up) /\ ~ rob (eff E) (bound_value E) (e_data E) f 0 r.
Proof.
  exists (env_of vee_data), nested. split; [exact vee_usual|]. split; [cbn [covers nested hold_on above pos]; repeat split; qdec|].
  split; [split; apply vee_within; auto|]. split; [qdec|]. split; [split; [intros _ C; discriminate C|split; left; split; exact I]|].
  split.
  - exists (iv 0 2), hold_on. split; [reflexivity|]. split; [qdec|]. split; [qdec|].
    cbn [ufrag hold_on afrag above pos affine]. repeat match goal with |- _ /\ _ => split end; first [qdec|repeat constructor].
  - exists 1, 1, 1. split; [vm_compute; reflexivity|]. intros H. apply nested_rob in H. vm_compute in H. apply H. reflexivity.
Qed.

(** The same until as an operand of until. *)
Definition waiting : fml Qc := FUntil above (iv 0 2) (FNot hold_on).
Lemma waiting_rob : forall v, rob (eff (env_of vee_data)) (bound_value (env_of vee_data)) vee_data waiting 0 v -> v <= q (-2).
Proof.
  intros v (gl & gr & h & _ & Rr & _ & [_ S]). apply S. intros u U1 U2.
  destruct (Rr u U1 U2) as (x & X & Ex).
  assert (q 2 <= x) by (apply (hold_on_rob u); [exact U1|exact U2|exact X]).
  assert (- q 2 <= q (-2)) by qdec. assert (gr u <= q (-2)) by (rewrite Ex; qlra).
  unfold qmin. destruct (Qclt_le_dec _ _); qlra.
Qed.
Lemma waiting_refuted : exists E f, usual 1 E /\ covers (bound_value E) (last_time (e_data E)) f 0 /\
  within (eff E) (e_data E) (q 100) f /\ q 100 < e_M E /\ regular (eff E) (bound_value E) (e_data E) f 0 0 /\
  (exists l i r, f = FUntil l i r /\ 0 <= bound_value E (ibegin i) /\ bound_value E (ibegin i) < bound_value E (iend i) /\
     comparison 1 l /\ ufrag (bound_value E) 1 r) /\
  exists r lo up, numbers (evaluate E (build f) 0 0) = Ok (r, lo, up) /\ ~ rob (eff E) (bound_value E) (e_data E) f 0 r.
Proof.
  exists (env_of vee_data), waiting. split; [exact vee_usual|]. split; [cbn [covers waiting hold_on above pos]; repeat split; qdec|].
  split; [split; [apply vee_within; auto|split; apply vee_within; auto]|]. split; [qdec|].
  split; [split; [left; split; exact I|split; left; split; exact I]|]. split.
  - exists above, (iv 0 2), (FNot hold_on). split; [reflexivity|]. split; [qdec|]. split; [qdec|].
    cbn [comparison ufrag hold_on afrag above pos affine]. repeat match goal with |- _ /\ _ => split end; first [qdec|repeat constructor].
  - exists (q (-1)), (q (-1)), (q (-1)). split; [vm_compute; reflexivity|]. intros H. apply waiting_rob in H. vm_compute in H. apply H. reflexivity.
Qed.

(** An operand that is as large as BigM: the upper bound stays at BigM. *)
Definition at_top : fml Qc := FUntil (FAtom (FConst None (q 10000)) GREATERTHAN (FConst None (q 0))) (iv 0 1) (pos 1).
Definition flat_data : list (list Qc) := [[q 0; q 0]; [q 10; q 0]].

Lemma flat_usual : usual 1 (env_of flat_data).
Proof. split; [reflexivity|]. split; [reflexivity|]. apply trace_check. vm_compute. reflexivity. Qed.
Lemma at_top_refuted : exists E f, usual 1 E /\ covers (bound_value E) (last_time (e_data E)) f 0 /\ ufrag (bound_value E) 1 f /\
  within (eff E) (e_data E) (e_M E) f /\ 0 <= e_M E /\ regular (eff E) (bound_value E) (e_data E) f 0 0 /\
  exists r lo up, numbers (evaluate E (build f) 0 0) = Ok (r, lo, up) /\ ~ r = up.
Proof.
  exists (env_of flat_data), at_top. pose proof flat_usual as U. split; [exact U|].
  split; [cbn [covers at_top pos]; repeat split; qdec|]. split.
  { cbn [ufrag at_top pos affine]. repeat match goal with |- _ /\ _ => split end; first [qdec|repeat constructor]. }
  split.
  { destruct U as (_ & _ & _ & R & _). cbn [e_data env_of] in *. split; [|apply pos_within; auto; repeat constructor; qdec].
    cbn [within rob expr operand]. intros t v (a & b & -> & -> & ->). split; qdec. }
  split; [qdec|]. split; [split; left; split; exact I|].
  exists (q 0), (q 0), (q 10000). split; [vm_compute; reflexivity|]. qdec.
Qed.
