(** Conjunction and disjunction of step signals: exact on the whole domain when
    neither operand changes at its very end. *)
From Coq Require Import List QArith Qcanon Bool Lia.
From Verif Require Import Num Base Signal QcTac Spec Robust Repr AndProof NegProof SimplifyProof Lip BoolOps Closed SigProof ResizeProof EvProof PlateauProof BoundedProof StepPlateau StepSig StepOr StepBounded StepTimed.
Import ListNotations.
Local Open Scope Qc_scope.

Lemma skip_same : forall e (l r : list smp), skip_unguarded e l = Ok r -> skip_guarded e l = Ok r.
Proof.
  intros e l. induction l as [|p l IH]; intros r H; cbn [skip_unguarded skip_guarded] in *; [discriminate|].
  destruct (nleb e (time p)); auto. destruct l; [discriminate|auto].
Qed.

Lemma or_same : forall (x y : signal Qc) z, computeOr x y = Ok z -> compute_or x y = Ok z.
Proof.
  intros x y z H. unfold computeOr in H. unfold compute_or. cbv zeta in *.
  destruct (skip_unguarded _ (rev (samples x))) as [i| | | |] eqn:Hi; cbn [bind] in H; try discriminate. apply skip_same in Hi. rewrite Hi. cbn [bind].
  destruct (skip_unguarded _ (rev (samples y))) as [j| | | |] eqn:Hj; cbn [bind] in H; try discriminate. apply skip_same in Hj. rewrite Hj. exact H.
Qed.

(** No change at the end of the domain. *)
Definition quiet (f : Qc -> Qc) (b e : Qc) : Prop := b = e \/ exists d, 0 < d /\ forall u, b <= u -> e - d <= u -> u <= e -> f u = f e.

Lemma quiet_neg : forall f b e, quiet f b e -> quiet (fun u => - f u) b e.
Proof. intros f b e [H|(d & H1 & H2)]; [left; auto|right]. exists d. split; auto. intros u U1 U2 U3. rewrite H2; auto. Qed.

Lemma quiet_left : forall x f b e v, step x f -> beginTime x = b -> endTime x = e -> quiet f b e -> left_at (samples x) e v -> v = f e.
Proof.
  intros x f b e v S B E Q (l1 & p & l2 & L & Hp & F & ->). pose proof S as [I Z (p0 & l0 & E0 & T0) En Ev]. rewrite B, E in *.
  assert (Dp : deriv p = 0). { unfold flat in Z. rewrite Forall_forall in Z. apply Z. rewrite L. apply in_elt. }
  assert (Bp : b <= time p).
  { destruct l1 as [|q l1]; rewrite L in E0; inversion E0; subst; [qlra|]. rewrite L in I. cbn [app] in I. destruct I as [I _].
    rewrite Forall_forall in I. specialize (I p (in_elt p l1 l2)). qlra. }
  rewrite line_flat by auto. assert (Pe : time p <= e). { rewrite L in En. apply Forall_app in En. destruct En as [_ En]. exact (Forall_inv En). }
  destruct (Qclt_le_dec (time p) e) as [Lt|Ge].
  - destruct Q as [Q|(d & Q1 & Q2)]; [exfalso; qlra|].
    assert (Hu : exists u, time p <= u /\ e - d <= u /\ u < e).
    { destruct (Qclt_le_dec (time p) (e - d)) as [C|C]; [exists (e - d)|exists (time p)]; (split; [|split]); qlra. }
    destruct Hu as (u & U1 & U2 & U3). rewrite <- (Q2 u) by qlra.
    specialize (Ev u ltac:(qlra) ltac:(qlra)). rewrite L, eval_app, eval_cons_all in Ev; auto.
    + rewrite line_flat in Ev by auto. congruence.
    + eapply Forall_impl; [|exact F]. cbn. intros. qlra.
  - assert (time p = e) by (apply Qcle_antisym; auto). rewrite <- H. apply (step_value x f); auto. rewrite L. apply in_elt.
Qed.

Lemma step_single : forall x f b, step x f -> beginTime x = b -> endTime x = b -> exists p, samples x = [p] /\ time p = b /\ deriv p = 0 /\ value p = f b.
Proof.
  intros x f b S B E. pose proof S as [I Z (p & l & E0 & T0) En Ev]. exists p.
  assert (l = []).
  { destruct l as [|q l]; auto. exfalso. rewrite E0 in I, En. destruct I as [I _]. apply Forall_inv in I.
    apply Forall_inv_tail, Forall_inv in En. qlra. }
  subst l. split; auto. split; [congruence|]. split; [rewrite E0 in Z; exact (Forall_inv Z)|].
  rewrite (step_value x f S p) by (rewrite E0; left; auto). congruence.
Qed.

Lemma step_or : forall x y f g b e, step x f -> step y g -> beginTime x = b -> beginTime y = b -> endTime x = e -> endTime y = e ->
  quiet f b e -> quiet g b e ->
  exists z, compute_or x y = Ok z /\ step z (fun u => qmax (f u) (g u)) /\ beginTime z = b /\ endTime z = e.
Proof.
  intros x y f g b e X Y Bx By Ex Ey Qf Qg. pose proof (step_domain x f X) as Bd. rewrite Bx, Ex in Bd.
  assert (Bq : qmax (beginTime x) (beginTime y) = b) by (rewrite Bx, By; apply qmax_l; qlra).
  assert (Eq : qmin (endTime x) (endTime y) = e) by (rewrite Ex, Ey; apply qmin_l; qlra).
  destruct (Qcle_lt_or_eq _ _ Bd) as [Lt|Eb].
  - pose proof (step_hstep x f X) as HX. pose proof (step_hstep y g Y) as HY. rewrite Bx, Ex in HX. rewrite By, Ey in HY.
    destruct (or_hstep x y b e f g HX HY Lt) as (z & Z1 & [A1 A2 A3 A4 (p0 & l0 & A5) A6 A7]).
    exists z. split; [apply or_same; auto|]. split; [|auto].
    destruct X as [X1 X2 (px & lx & X3 & X3') X4 X5]. destruct Y as [Y1 Y2 (py & ly & Y3 & Y3') Y4 Y5].
    destruct (left_at_exists (samples x) e) as (xe & Lx). { rewrite X3. discriminate. }
    destruct (left_at_exists (samples y) e) as (ye & Ly). { rewrite Y3. discriminate. }
    destruct (computeOr_ok x y f g xe ye) as (z' & E & [R1 R2 R3 R4 R5 R6 R7]); rewrite ?Bq, ?Eq; auto using increasing_ordered; try qlra.
    { exists px, lx. split; [auto|qlra]. }
    { exists py, ly. split; [auto|qlra]. }
    { intros u U1 U2. apply X5; qlra. }
    { intros u U1 U2. apply Y5; qlra. }
    assert (z' = z) by congruence. subst z'. rewrite Bq, Eq in *.
    constructor; auto.
    + exists p0, l0. rewrite A1. auto.
    + rewrite A2. exact A6.
    + rewrite A1, A2. intros u U1 U2. destruct (Qcle_lt_or_eq _ _ U2) as [U3| ->]; [apply A7; auto|].
      rewrite R7. f_equal. f_equal; [eapply (quiet_left x)|eapply (quiet_left y)]; eauto; constructor; eauto.
  - rewrite <- Eb in *. destruct (step_single x f b X Bx Ex) as (p & P1 & P2 & P3 & P4). destruct (step_single y g b Y By Ey) as (q & Q1 & Q2 & Q3 & Q4).
    unfold compute_or. cbv zeta. rewrite fmax_q, fmin_q, Bq, Eq, P1, Q1. cbn [rev app skip_guarded].
    assert (S1 : forall r : smp, (if nleb b (time r) then Ok [r] else Ok [r]) = Ok [r]) by (intros; destruct (nleb _ _); auto).
    rewrite !S1. cbn [bind computePartialOr].
    assert (C1 : nltb b (time p) = false) by (apply nltb_false; qlra). rewrite C1.
    assert (C2 : neqb (time p) b = true) by (apply neqb_true; auto). rewrite C2.
    unfold computeSegmentOr. cbn [seg_or_loop].
    assert (C3 : nltb (time p) (time q) = false) by (apply nltb_false; qlra). rewrite C3. cbn [bind deref].
    assert (L : exists r, seg_or_last p [] b false q = Ok [r] /\ time r = b /\ deriv r = 0 /\ value r = qmax (f b) (g b)).
    { unfold seg_or_last. vline. rewrite !(line_flat p) by auto. rewrite !(line_flat q) by auto. rewrite P4, Q4.
      destruct (nltb (g b) (f b)) eqn:B1; qb.
      - assert (B2 : nltb (f b) (g b) = false) by (apply nltb_false; qlra). rewrite B2.
        eexists. split; [reflexivity|]. split; auto. split; auto. rewrite qmax_l by qlra. auto.
      - destruct (neqb (f b) (g b)) eqn:B3; qb.
        + assert (B2 : nltb (f b) (g b) = false) by (apply nltb_false; qlra). rewrite B2.
          eexists. split; [reflexivity|]. split; auto. split; auto. rewrite qmax_l by qlra. auto.
        + eexists. split; [reflexivity|]. cbn [time deriv value]. split; auto. split; auto. rewrite qmax_r by auto. auto. }
    destruct L as (r & L1 & L2 & L3 & L4). rewrite L1. cbn [bind]. unfold simplify. cbn [samples app length Nat.mul Nat.add beginTime endTime simplify_loop].
    assert (C4 : neqb (time r) b = true) by (apply neqb_true; auto).
    assert (C5 : nltb (time r) b = false) by (apply nltb_false; qlra).
    rewrite C4. cbn [bind back rev app]. rewrite C5.
    eexists. split; [reflexivity|]. split; [|auto]. constructor; cbn [samples beginTime endTime].
    + cbn. auto.
    + constructor; auto.
    + exists r, []. auto.
    + constructor; [qlra|auto].
    + intros u U1 U2. assert (u = b) by (apply Qcle_antisym; auto). subst u.
      rewrite eval_cons_all; auto; [|qlra]. rewrite line_flat, L4; auto.
Qed.

Lemma step_and : forall x y f g b e, step x f -> step y g -> beginTime x = b -> beginTime y = b -> endTime x = e -> endTime y = e ->
  quiet f b e -> quiet g b e ->
  exists z, compute_and x y = Ok z /\ step z (fun u => qmin (f u) (g u)) /\ beginTime z = b /\ endTime z = e.
Proof.
  intros x y f g b e X Y Bx By Ex Ey Qf Qg.
  destruct (step_or (cnot x) (cnot y) (fun u => - f u) (fun u => - g u) b e) as (z & Z1 & Z2 & Z3 & Z4); auto using step_neg, quiet_neg.
  rewrite compute_or_neg, !cnot_cnot in Z1. destruct (compute_and x y) as [z'| | | |]; cbn [rmap] in Z1; try discriminate. injection Z1 as <-.
  exists z'. split; [reflexivity|]. cbn [compute_not beginTime endTime] in Z3, Z4. split; [|auto].
  apply step_neg in Z2. rewrite cnot_cnot in Z2. destruct Z2 as [A1 A2 A3 A4 A5]. constructor; auto.
  intros u U1 U2. rewrite A5 by auto. f_equal. rewrite <- (Qcopp_involutive (f u)), <- (Qcopp_involutive (g u)), qmin_neg, !Qcopp_involutive. reflexivity.
Qed.
