(** The robustness pass over formulas without until, on held signals. *)
From Coq Require Import List QArith Qcanon Bool String Lia.
From Verif Require Import Num Base Signal QcTac Spec Robust Repr NegProof SimplifyProof Lip BoolOps Closed SigProof ResizeProof BoundedProof TimedProof Transducer StlSpec TreeProof ReadProof AtomProof ExprPass NodeProof TreeRob StepSig StepTimed StepBool StepSpec StepRead.
Import ListNotations.
Local Open Scope Qc_scope.

(** What is left of a signal after a boolean operator: its value at the start and
    everywhere before the end. *)
Record top (z : signal Qc) (s e : Qc) (g : Qc -> Qc) : Prop := {
  tp_begin : beginTime z = s;
  tp_end : endTime z = e;
  tp_ord : ordered (samples z);
  tp_front : exists p l, samples z = p :: l /\ time p = s /\ value p = g s /\ Forall (fun q => s < time q) l;
  tp_eval : forall u, s <= u -> u < e -> eval (samples z) u = Some (g u)
}.

Lemma step_front : forall z g, step z g -> front_value z = Ok (g (beginTime z)).
Proof.
  intros z g S. destruct (st_front _ _ S) as (p & l & E & Tp). unfold front_value. rewrite E. cbn [deref bind].
  rewrite (step_value _ _ S p) by (rewrite E; left; reflexivity). rewrite Tp. reflexivity.
Qed.

Lemma step_top : forall z g, step z g -> top z (beginTime z) (endTime z) g.
Proof.
  intros z g S. pose proof (st_front _ _ S) as (p & l & E & Tp). constructor; auto.
  - apply increasing_ordered, S.
  - exists p, l. split; [exact E|]. split; [exact Tp|]. split.
    + rewrite (step_value _ _ S p) by (rewrite E; left; reflexivity). rewrite Tp. reflexivity.
    + pose proof (st_inc _ _ S) as I. rewrite E in I. destruct I as [I _]. rewrite <- Tp. exact I.
  - intros u U1 U2. apply (st_eval _ _ S); auto. qlra.
Qed.

Lemma top_front : forall z s e g, top z s e g -> front_value z = Ok (g s).
Proof. intros z s e g H. destruct (tp_front _ _ _ _ H) as (p & l & E & _ & V & _). unfold front_value. rewrite E. cbn [deref bind]. congruence. Qed.

Lemma top_neg : forall z s e g, top z s e g -> top (cnot z) s e (fun u => - g u).
Proof.
  intros z s e g [A1 A2 A3 (p & l & A4 & A5 & A6 & A7) A8]. constructor; cbn [compute_not samples beginTime endTime]; auto.
  - apply ordered_neg. exact A3.
  - exists (neg p), (negl l). rewrite A4. split; [reflexivity|]. split; [exact A5|]. split.
    + unfold neg. cbn [neg_sample value]. rewrite A6. reflexivity.
    + rewrite Forall_map. exact A7.
  - intros u U1 U2. rewrite eval_neg, A8 by auto. reflexivity.
Qed.

Lemma top_left : forall z s g, top z s s g -> left_at (samples z) s (g s).
Proof.
  intros z s g [A1 A2 A3 (p & l & A4 & A5 & A6 & A7) A8]. exists [], p, l. split; [exact A4|]. split; [auto|]. split.
  - eapply Forall_impl; [|exact A7]. cbn. intros. qlra.
  - unfold line. rewrite A6, A5. ring.
Qed.

Lemma result_top : forall z s e g ve, and_result z s e g ve -> s <= e -> (s = e -> ve = g s) -> top z s e g.
Proof.
  intros z s e g ve [A1 A2 (p & l & A3 & A4 & A5) A6 A7 A8 A9] H V. constructor; auto.
  exists p, l. split; [exact A3|]. split; [exact A4|]. split; [|exact A5].
  assert (EV : eval (samples z) s = Some (value p)).
  { rewrite A3, eval_cons_all; [|exact A5|qlra]. f_equal. unfold line. rewrite A4. ring. }
  destruct (Qcle_lt_or_eq _ _ H) as [L|L].
  - rewrite A8 in EV by qlra. congruence.
  - rewrite <- L, EV in A9. rewrite (V L) in A9. congruence.
Qed.

Lemma top_and : forall x y s e f g, top x s e f -> top y s e g -> s <= e ->
  exists z, compute_and x y = Ok z /\ top z s e (fun u => qmin (f u) (g u)).
Proof.
  intros x y s e f g X Y H.
  pose proof (tp_front _ _ _ _ X) as (p & l & X1 & X2 & X3 & X4). pose proof (tp_front _ _ _ _ Y) as (q & k & Y1 & Y2 & Y3 & Y4).
  destruct (left_at_exists (samples x) e) as (xe & Lx); [rewrite X1; discriminate|].
  destruct (left_at_exists (samples y) e) as (ye & Ly); [rewrite Y1; discriminate|].
  assert (Bq : qmax (beginTime x) (beginTime y) = s) by (rewrite (tp_begin _ _ _ _ X), (tp_begin _ _ _ _ Y); apply qmax_same).
  assert (Eq : qmin (endTime x) (endTime y) = e) by (rewrite (tp_end _ _ _ _ X), (tp_end _ _ _ _ Y); apply qmin_same).
  destruct (compute_and_ok x y f g xe ye) as (z & Z & R); rewrite ?Bq, ?Eq; auto; try apply X; try apply Y.
  { exists p, l. split; [exact X1|qlra]. }
  { exists q, k. split; [exact Y1|qlra]. }
  rewrite Bq, Eq in R. exists z. split; [exact Z|]. eapply result_top; eauto. intros <-.
  assert (LU : forall (l : list (sample Qc)) v v', left_at l s v -> left_at l s v' -> v = v').
  { intros l0 v v' (l1 & p1 & l2 & -> & A1 & A2 & ->) L'. symmetry. eapply left_at_split; eauto. }
  rewrite (LU _ _ _ Lx (top_left _ _ _ X)), (LU _ _ _ Ly (top_left _ _ _ Y)). reflexivity.
Qed.

Lemma top_or : forall x y s e f g, top x s e f -> top y s e g -> s <= e ->
  exists z, compute_or x y = Ok z /\ top z s e (fun u => qmax (f u) (g u)).
Proof.
  intros x y s e f g X Y H.
  pose proof (tp_front _ _ _ _ X) as (p & l & X1 & X2 & X3 & X4). pose proof (tp_front _ _ _ _ Y) as (q & k & Y1 & Y2 & Y3 & Y4).
  destruct (left_at_exists (samples x) e) as (xe & Lx); [rewrite X1; discriminate|].
  destruct (left_at_exists (samples y) e) as (ye & Ly); [rewrite Y1; discriminate|].
  assert (Bq : qmax (beginTime x) (beginTime y) = s) by (rewrite (tp_begin _ _ _ _ X), (tp_begin _ _ _ _ Y); apply qmax_same).
  assert (Eq : qmin (endTime x) (endTime y) = e) by (rewrite (tp_end _ _ _ _ X), (tp_end _ _ _ _ Y); apply qmin_same).
  destruct (compute_or_ok x y f g xe ye) as (z & Z & R); rewrite ?Bq, ?Eq; auto; try apply X; try apply Y.
  { exists p, l. split; [exact X1|qlra]. }
  { exists q, k. split; [exact Y1|qlra]. }
  rewrite Bq, Eq in R. exists z. split; [exact Z|]. eapply result_top; eauto. intros <-.
  assert (LU : forall (l : list (sample Qc)) v v', left_at l s v -> left_at l s v' -> v = v').
  { intros l0 v v' (l1 & p1 & l2 & -> & A1 & A2 & ->) L'. symmetry. eapply left_at_split; eauto. }
  rewrite (LU _ _ _ Lx (top_left _ _ _ X)), (LU _ _ _ Ly (top_left _ _ _ Y)). reflexivity.
Qed.

(** ** Generalities on the reading *)
Lemma expr_of_linear : forall cst data f t v, expr_of linear cst data f t v <-> expr cst data f t v.
Proof.
  intros cst data. induction f; intros t x; cbn [expr_of expr operand]; try tauto; repeat setoid_rewrite IHf; repeat setoid_rewrite IHf1; repeat setoid_rewrite IHf2; tauto.
Qed.

(** Read with linear interpolation, it is the robustness of the other claims. *)
Lemma rob_of_linear : forall cst val data f t v, rob_of linear cst val data f t v <-> rob cst val data f t v.
Proof.
  intros cst val data. induction f; intros t x; cbn [rob_of rob]; try tauto.
  - destruct op; setoid_rewrite expr_of_linear; tauto.
  - setoid_rewrite IHf. tauto.
  - setoid_rewrite IHf1. setoid_rewrite IHf2. tauto.
  - setoid_rewrite IHf1. setoid_rewrite IHf2. tauto.
  - setoid_rewrite IHf1. setoid_rewrite IHf2. tauto.
  - setoid_rewrite IHf. tauto.
  - setoid_rewrite IHf. tauto.
  - setoid_rewrite IHf1. setoid_rewrite IHf2. tauto.
Qed.

Lemma timed_within : forall rd cst val data M w f t v, timed val w f -> within_of rd cst val data M f -> rob_of rd cst val data f t v -> - M <= v /\ v <= M.
Proof.
  intros rd cst val data M w f. induction f; intros t x F W H; cbn [timed within_of] in *; try contradiction.
  - apply (W t). exact H.
  - cbn [rob_of] in H. destruct H as (y & H & ->). destruct (IHf _ _ F W H). split; qlra.
  - cbn [rob_of] in H. destruct H as (a & b & A & B & ->). destruct F as [F1 F2], W as [W1 W2]. destruct (IHf1 _ _ F1 W1 A), (IHf2 _ _ F2 W2 B).
    destruct (qmin_cases a b) as [[-> ?]|[-> ?]]; auto.
  - cbn [rob_of] in H. destruct H as (a & b & A & B & ->). destruct F as [F1 F2], W as [W1 W2]. destruct (IHf1 _ _ F1 W1 A), (IHf2 _ _ F2 W2 B).
    destruct (qmax_cases a b) as [[-> ?]|[-> ?]]; auto.
  - cbn [rob_of] in H. destruct H as (a & b & A & B & ->). destruct F as [F1 F2], W as [W1 W2]. destruct (IHf1 _ _ F1 W1 A), (IHf2 _ _ F2 W2 B).
    destruct (qmax_cases (- a) b) as [[-> ?]|[-> ?]]; auto. split; qlra.
  - cbn [rob_of] in H. destruct H as (g & G & S). destruct F as (F1 & F2 & F3).
    apply (is_ext_within true g (t + val (ibegin i)) (t + val (iend i))); auto; [qlra|].
    intros u U1 U2. eapply IHf; eauto.
  - cbn [rob_of] in H. destruct H as (g & G & S). destruct F as (F1 & F2 & F3).
    apply (is_ext_within false g (t + val (ibegin i)) (t + val (iend i))); auto; [qlra|].
    intros u U1 U2. eapply IHf; eauto.
Qed.

(** ** The pass *)
Section Pass.
Variable E : env Qc.
Variable w : nat.
Hypothesis PRV : e_ip E = PREVIOUS.
Hypothesis SPC : e_sem E = SPACE.
Hypothesis TR : trace w (e_data E).

Notation T := (last_time (e_data E)).
Notation val := (bound_value E).
Notation cst := (eff E).
Notation D := (e_data E).
Notation M := (e_M E).
Notation Rob := (rob_of held cst val D).
Notation prep := (ExprPass.prep E).

Lemma atom_rob_p : forall l op r t v, expression w l -> expression w r ->
  Rob (FAtom l op r) t v <-> v = pdiff E l op r t.
Proof.
  intros l op r t v Xl Xr. unfold pdiff. cbn [rob_of].
  destruct op; (split; [intros (a & b & H1 & H2 & ->)|intros ->; do 2 eexists; rewrite !(expr_pval E w TR) by auto; auto]);
    apply (expr_pval E w TR) in H1; auto; apply (expr_pval E w TR) in H2; auto; subst; reflexivity.
Qed.

Lemma steady_quiet : forall f g s e, steady held cst val D f e -> s <= e -> (forall u, s <= u -> u <= e -> Rob f u (g u)) -> quiet g s e.
Proof.
  intros f g s e (d & D1 & D2) H R. right. exists d. split; auto. intros u U1 U2 U3. apply (D2 u); auto. apply R; auto. apply Qcle_refl.
Qed.

Lemma step_pass : forall f s e, timed val w f -> 0 <= s -> s <= e -> covers val T f e -> within_of held cst val D M f ->
  at_samples val D f s e -> steady_ends held cst val D f s e ->
  exists v t g, compute_rob E (prep f s e) = Ok (v, t) /\ step (tz t) g /\ beginTime (tz t) = s /\ endTime (tz t) = e /\
    (forall u, s <= u -> u <= e -> Rob f u (g u)) /\ v = g s.
Proof.
  induction f; intros s e F H0 H1 C W A SE; cbn [timed] in F; try contradiction.
  - (* atom *)
    destruct F as (Xl & Xr). cbn [covers] in C. cbn [at_samples] in A.
    destruct (atom_pass_p E w TR PRV SPC f1 op f2 s e) as (t & A1 & A2 & A3 & A4); auto; try qlra.
    do 2 eexists. exists (pdiff E f1 op f2). split; [exact A1|]. split; [exact A2|]. split; [exact A3|]. split; [exact A4|]. split; [|reflexivity].
    intros u _ _. apply atom_rob_p; auto.
  - (* not *)
    destruct (IHf s e F H0 H1 C W A SE) as (v & t & g & A1 & A2 & A3 & A4 & A5 & A6).
    change (prep (FNot f) s e) with (TNot (fresh s e) (prep f s e)). cbn [compute_rob]. rewrite A1. cbn [bind].
    pose proof (step_neg _ _ A2) as R. rewrite (step_front _ _ R). cbn [bind].
    do 2 eexists. exists (fun u => - g u). split; [reflexivity|]. cbn [tz node with_z nz].
    split; [exact R|]. split; [exact A3|]. split; [exact A4|]. split; [|cbn [compute_not beginTime]; rewrite A3; reflexivity].
    intros u U1 U2. cbn [rob_of]. eexists. split; [apply A5; auto|reflexivity].
  - (* and *)
    destruct F as [F1 F2]. destruct C as [C1 C2]. destruct W as [W1 W2]. destruct A as [P1 P2]. destruct SE as (Q0 & Q1 & Q2).
    destruct (IHf1 s e F1 H0 H1 C1 W1 P1 Q1) as (v1 & t1 & g1 & A1 & A2 & A3 & A4 & A5 & A6).
    destruct (IHf2 s e F2 H0 H1 C2 W2 P2 Q2) as (v2 & t2 & g2 & B1 & B2 & B3 & B4 & B5 & B6).
    assert (G1 : quiet g1 s e) by (destruct Q0 as [Q0|[Q0 _]]; [left; exact Q0|eapply steady_quiet; eauto]).
    assert (G2 : quiet g2 s e) by (destruct Q0 as [Q0|[_ Q0]]; [left; exact Q0|eapply steady_quiet; eauto]).
    change (prep (FAnd f1 f2) s e) with (TAnd (fresh s e) (prep f1 s e) (prep f2 s e)). cbn [compute_rob].
    rewrite A1. cbn [bind]. rewrite B1. cbn [bind].
    rewrite A4, B4, smax_same.
    pose proof (with_end_same (tz t1)) as WE1. rewrite A4 in WE1. rewrite WE1.
    pose proof (with_end_same (tz t2)) as WE2. rewrite B4 in WE2. rewrite WE2.
    destruct (step_and _ _ _ _ s e A2 B2) as (z & Z1 & Z2 & Z3 & Z4); auto.
    rewrite Z1. cbn [bind]. rewrite (step_front _ _ Z2). cbn [bind].
    do 2 eexists. exists (fun u => qmin (g1 u) (g2 u)). split; [reflexivity|]. cbn [tz node with_z nz].
    split; [exact Z2|]. split; [exact Z3|]. split; [exact Z4|]. split; [|rewrite Z3; reflexivity].
    intros u U1 U2. cbn [rob_of]. do 2 eexists. split; [apply A5; auto|]. split; [apply B5; auto|reflexivity].
  - (* or *)
    destruct F as [F1 F2]. destruct C as [C1 C2]. destruct W as [W1 W2]. destruct A as [P1 P2]. destruct SE as (Q0 & Q1 & Q2).
    destruct (IHf1 s e F1 H0 H1 C1 W1 P1 Q1) as (v1 & t1 & g1 & A1 & A2 & A3 & A4 & A5 & A6).
    destruct (IHf2 s e F2 H0 H1 C2 W2 P2 Q2) as (v2 & t2 & g2 & B1 & B2 & B3 & B4 & B5 & B6).
    assert (G1 : quiet g1 s e) by (destruct Q0 as [Q0|[Q0 _]]; [left; exact Q0|eapply steady_quiet; eauto]).
    assert (G2 : quiet g2 s e) by (destruct Q0 as [Q0|[_ Q0]]; [left; exact Q0|eapply steady_quiet; eauto]).
    change (prep (FOr f1 f2) s e) with (TOr (fresh s e) (prep f1 s e) (prep f2 s e)). cbn [compute_rob].
    rewrite A1. cbn [bind]. rewrite B1. cbn [bind].
    rewrite A4, B4, smax_same.
    pose proof (with_end_same (tz t1)) as WE1. rewrite A4 in WE1. rewrite WE1.
    pose proof (with_end_same (tz t2)) as WE2. rewrite B4 in WE2. rewrite WE2.
    destruct (step_or _ _ _ _ s e A2 B2) as (z & Z1 & Z2 & Z3 & Z4); auto.
    rewrite Z1. cbn [bind]. rewrite (step_front _ _ Z2). cbn [bind].
    do 2 eexists. exists (fun u => qmax (g1 u) (g2 u)). split; [reflexivity|]. cbn [tz node with_z nz].
    split; [exact Z2|]. split; [exact Z3|]. split; [exact Z4|]. split; [|rewrite Z3; reflexivity].
    intros u U1 U2. cbn [rob_of]. do 2 eexists. split; [apply A5; auto|]. split; [apply B5; auto|reflexivity].
  - (* implies *)
    destruct F as [F1 F2]. destruct C as [C1 C2]. destruct W as [W1 W2]. destruct A as [P1 P2]. destruct SE as (Q0 & Q1 & Q2).
    destruct (IHf1 s e F1 H0 H1 C1 W1 P1 Q1) as (v1 & t1 & g1 & A1 & A2 & A3 & A4 & A5 & A6).
    destruct (IHf2 s e F2 H0 H1 C2 W2 P2 Q2) as (v2 & t2 & g2 & B1 & B2 & B3 & B4 & B5 & B6).
    assert (G1 : quiet g1 s e) by (destruct Q0 as [Q0|[Q0 _]]; [left; exact Q0|eapply steady_quiet; eauto]).
    assert (G2 : quiet g2 s e) by (destruct Q0 as [Q0|[_ Q0]]; [left; exact Q0|eapply steady_quiet; eauto]).
    change (prep (FImp f1 f2) s e) with (TImp (fresh s e) (prep f1 s e) (prep f2 s e)). cbn [compute_rob].
    rewrite A1. cbn [bind]. rewrite B1. cbn [bind].
    unfold compute_implies.
    destruct (step_or _ _ _ _ s e (step_neg _ _ A2) B2) as (z & Z1 & Z2 & Z3 & Z4); auto using quiet_neg.
    rewrite Z1. cbn [bind]. rewrite (step_front _ _ Z2). cbn [bind].
    do 2 eexists. exists (fun u => qmax (- g1 u) (g2 u)). split; [reflexivity|]. cbn [tz node with_z nz].
    split; [exact Z2|]. split; [exact Z3|]. split; [exact Z4|]. split; [|rewrite Z3; reflexivity].
    intros u U1 U2. cbn [rob_of]. do 2 eexists. split; [apply A5; auto|]. split; [apply B5; auto|reflexivity].
  - (* eventually *)
    destruct F as (F1 & F2 & F3). cbn [covers at_samples within_of steady_ends] in *.
    destruct (IHf (s + val (ibegin i)) (e + val (iend i))) as (v1 & t1 & g1 & A1 & A2 & A3 & A4 & A5 & A6); auto; try qlra.
    destruct (timed_ev_step M empty_signal g1 (tz t1) (val (ibegin i)) (val (iend i)) s e) as (z0 & z & h & Z1 & Z2 & Z3 & Z4 & Z5 & Z6 & Z7); auto.
    { rewrite A3, A4. intros u U1 U2. exact (proj1 (timed_within _ _ _ _ _ _ _ _ _ F3 W (A5 u U1 U2))). }
    change (prep (FEv i f) s e) with (TEv (fresh s e) i (prep f (s + val (ibegin i)) (e + val (iend i)))). cbn [compute_rob].
    rewrite A1. cbn [bind]. change (nz (fresh s e)) with (@empty_signal Qc _). change (start_time (fresh s e)) with s. change (end_time (fresh s e)) with e.
    rewrite Z1. cbn [bind].
    assert (ET : smin (endTime z0) e = e). { rewrite smin_qmin, Z2. apply qmin_r. qlra. }
    rewrite ET, smax_r by auto.
    destruct (resize_some (tz t1) (nsub e (val (iend i))) (endTime (tz t1)) n0) as (zc & Y1 & _); auto.
    { destruct (st_front _ _ A2) as (p & l & -> & _). discriminate. }
    { rewrite A4. change (e - val (iend i) <= e + val (iend i)). qlra. }
    { apply removelast_forall. apply A2. }
    rewrite Y1. cbn [bind]. rewrite Z3. cbn [bind]. rewrite (step_front _ _ Z4). cbn [bind].
    do 2 eexists. exists h. split; [reflexivity|]. cbn [tz node with_z nz].
    split; [exact Z4|]. split; [exact Z5|]. split; [exact Z6|]. split; [|rewrite Z5; reflexivity].
    intros u U1 U2. cbn [rob_of]. exists g1. split; [|apply Z7; auto]. intros u' U3 U4. apply A5; qlra.
  - (* always *)
    destruct F as (F1 & F2 & F3). cbn [covers at_samples within_of steady_ends] in *.
    destruct (IHf (s + val (ibegin i)) (e + val (iend i))) as (v1 & t1 & g1 & A1 & A2 & A3 & A4 & A5 & A6); auto; try qlra.
    destruct (timed_alw_step M empty_signal g1 (tz t1) (val (ibegin i)) (val (iend i)) s e) as (z0 & z & h & Z1 & Z2 & Z3 & Z4 & Z5 & Z6 & Z7); auto.
    { rewrite A3, A4. intros u U1 U2. exact (proj2 (timed_within _ _ _ _ _ _ _ _ _ F3 W (A5 u U1 U2))). }
    change (prep (FAlw i f) s e) with (TAlw (fresh s e) i (prep f (s + val (ibegin i)) (e + val (iend i)))). cbn [compute_rob].
    rewrite A1. cbn [bind]. change (nz (fresh s e)) with (@empty_signal Qc _). change (start_time (fresh s e)) with s. change (end_time (fresh s e)) with e.
    rewrite Z1. cbn [bind].
    assert (ET : smin (endTime z0) e = e). { rewrite smin_qmin, Z2. apply qmin_r. qlra. }
    rewrite ET, smax_r by auto. rewrite Z3. cbn [bind]. rewrite (step_front _ _ Z4). cbn [bind].
    do 2 eexists. exists h. split; [reflexivity|]. cbn [tz node with_z nz].
    split; [exact Z4|]. split; [exact Z5|]. split; [exact Z6|]. split; [|rewrite Z5; reflexivity].
    intros u U1 U2. cbn [rob_of]. exists g1. split; [|apply Z7; auto]. intros u' U3 U4. apply A5; qlra.
Qed.

Lemma top_pass : forall f s e, timed val w f -> 0 <= s -> s <= e -> covers val T f e -> within_of held cst val D M f ->
  at_samples val D f s e -> settled held cst val D f s e ->
  exists v t g, compute_rob E (prep f s e) = Ok (v, t) /\ top (tz t) s e g /\
    (forall u, s <= u -> u <= e -> Rob f u (g u)) /\ v = g s.
Proof.
  assert (CH : forall f s e, timed val w f -> 0 <= s -> s <= e -> covers val T f e -> within_of held cst val D M f ->
    at_samples val D f s e -> steady_ends held cst val D f s e ->
    exists v t g, compute_rob E (prep f s e) = Ok (v, t) /\ top (tz t) s e g /\
    (forall u, s <= u -> u <= e -> Rob f u (g u)) /\ v = g s).
  { intros f s e F H0 H1 C W A SE. destruct (step_pass f s e F H0 H1 C W A SE) as (v & t & g & A1 & A2 & A3 & A4 & A5 & A6).
    exists v, t, g. split; [exact A1|]. split; [|auto]. rewrite <- A3, <- A4. apply step_top. exact A2. }
  induction f; intros s e F H0 H1 C W A SE; try (apply CH; assumption); cbn [timed settled] in F, SE.
  - (* not *)
    destruct (IHf s e F H0 H1 C W A SE) as (v & t & g & A1 & A2 & A3 & A4).
    change (prep (FNot f) s e) with (TNot (fresh s e) (prep f s e)). cbn [compute_rob]. rewrite A1. cbn [bind].
    pose proof (top_neg _ _ _ _ A2) as R. rewrite (top_front _ _ _ _ R). cbn [bind].
    do 2 eexists. exists (fun u => - g u). split; [reflexivity|]. cbn [tz node with_z nz].
    split; [exact R|]. split; [|reflexivity].
    intros u U1 U2. cbn [rob_of]. eexists. split; [apply A3; auto|reflexivity].
  - (* and *)
    destruct F as [F1 F2]. destruct C as [C1 C2]. destruct W as [W1 W2]. destruct A as [P1 P2]. destruct SE as [Q1 Q2].
    destruct (IHf1 s e F1 H0 H1 C1 W1 P1 Q1) as (v1 & t1 & g1 & A1 & A2 & A3 & A4).
    destruct (IHf2 s e F2 H0 H1 C2 W2 P2 Q2) as (v2 & t2 & g2 & B1 & B2 & B3 & B4).
    change (prep (FAnd f1 f2) s e) with (TAnd (fresh s e) (prep f1 s e) (prep f2 s e)). cbn [compute_rob].
    rewrite A1. cbn [bind]. rewrite B1. cbn [bind].
    rewrite (tp_end _ _ _ _ A2), (tp_end _ _ _ _ B2), smax_same.
    pose proof (with_end_same (tz t1)) as WE1. rewrite (tp_end _ _ _ _ A2) in WE1. rewrite WE1.
    pose proof (with_end_same (tz t2)) as WE2. rewrite (tp_end _ _ _ _ B2) in WE2. rewrite WE2.
    destruct (top_and _ _ _ _ _ _ A2 B2 H1) as (z & Z1 & Z2).
    rewrite Z1. cbn [bind]. rewrite (top_front _ _ _ _ Z2). cbn [bind].
    do 2 eexists. exists (fun u => qmin (g1 u) (g2 u)). split; [reflexivity|]. cbn [tz node with_z nz].
    split; [exact Z2|]. split; [|reflexivity].
    intros u U1 U2. cbn [rob_of]. do 2 eexists. split; [apply A3; auto|]. split; [apply B3; auto|reflexivity].
  - (* or *)
    destruct F as [F1 F2]. destruct C as [C1 C2]. destruct W as [W1 W2]. destruct A as [P1 P2]. destruct SE as [Q1 Q2].
    destruct (IHf1 s e F1 H0 H1 C1 W1 P1 Q1) as (v1 & t1 & g1 & A1 & A2 & A3 & A4).
    destruct (IHf2 s e F2 H0 H1 C2 W2 P2 Q2) as (v2 & t2 & g2 & B1 & B2 & B3 & B4).
    change (prep (FOr f1 f2) s e) with (TOr (fresh s e) (prep f1 s e) (prep f2 s e)). cbn [compute_rob].
    rewrite A1. cbn [bind]. rewrite B1. cbn [bind].
    rewrite (tp_end _ _ _ _ A2), (tp_end _ _ _ _ B2), smax_same.
    pose proof (with_end_same (tz t1)) as WE1. rewrite (tp_end _ _ _ _ A2) in WE1. rewrite WE1.
    pose proof (with_end_same (tz t2)) as WE2. rewrite (tp_end _ _ _ _ B2) in WE2. rewrite WE2.
    destruct (top_or _ _ _ _ _ _ A2 B2 H1) as (z & Z1 & Z2).
    rewrite Z1. cbn [bind]. rewrite (top_front _ _ _ _ Z2). cbn [bind].
    do 2 eexists. exists (fun u => qmax (g1 u) (g2 u)). split; [reflexivity|]. cbn [tz node with_z nz].
    split; [exact Z2|]. split; [|reflexivity].
    intros u U1 U2. cbn [rob_of]. do 2 eexists. split; [apply A3; auto|]. split; [apply B3; auto|reflexivity].
  - (* implies *)
    destruct F as [F1 F2]. destruct C as [C1 C2]. destruct W as [W1 W2]. destruct A as [P1 P2]. destruct SE as [Q1 Q2].
    destruct (IHf1 s e F1 H0 H1 C1 W1 P1 Q1) as (v1 & t1 & g1 & A1 & A2 & A3 & A4).
    destruct (IHf2 s e F2 H0 H1 C2 W2 P2 Q2) as (v2 & t2 & g2 & B1 & B2 & B3 & B4).
    change (prep (FImp f1 f2) s e) with (TImp (fresh s e) (prep f1 s e) (prep f2 s e)). cbn [compute_rob].
    rewrite A1. cbn [bind]. rewrite B1. cbn [bind]. unfold compute_implies.
    destruct (top_or _ _ _ _ _ _ (top_neg _ _ _ _ A2) B2 H1) as (z & Z1 & Z2).
    rewrite Z1. cbn [bind]. rewrite (top_front _ _ _ _ Z2). cbn [bind].
    do 2 eexists. exists (fun u => qmax (- g1 u) (g2 u)). split; [reflexivity|]. cbn [tz node with_z nz].
    split; [exact Z2|]. split; [|reflexivity].
    intros u U1 U2. cbn [rob_of]. do 2 eexists. split; [apply A3; auto|]. split; [apply B3; auto|reflexivity].
Qed.
End Pass.
