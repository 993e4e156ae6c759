(** Signals given by closed pieces: every sample's line is known up to and
    including the start of the next one.  Continuous signals are of this form. *)
From Coq Require Import List QArith Qcanon Bool Lia.
From Verif Require Import Num Base Signal QcTac Spec Robust Repr AndProof NegProof SimplifyProof Lip BoolOps.
Import ListNotations.
Local Open Scope Qc_scope.

(** [x] consists of pieces whose values satisfy [Q] on the whole domain. *)
Definition crepQ (Q : Qc -> Qc -> Prop) (x : signal Qc) : Prop :=
  samples x <> [] /\ prepQ true Q (endTime x) (samples x) (beginTime x).
Notation crep f := (crepQ (fun u v => f u = v)).

(** There is a sample at the end. *)
Definition ends (x : signal Qc) : Prop := exists q, In q (samples x) /\ time q = endTime x.

(** The first sample is the only one at its time. *)
Definition front1 (x : signal Qc) : Prop :=
  exists p l, samples x = p :: l /\ time p = beginTime x /\ Forall (fun q => beginTime x < time q) l.

Lemma prepQ_app : forall cl Q e l1 l2 t, prepQ cl Q e (l1 ++ l2) t <->
  exists t1, prepQ cl Q t1 l1 t /\ prepQ cl Q e l2 t1.
Proof.
  intros cl Q e l1. induction l1 as [|p l1 IH]; intros l2 t; cbn [app].
  - split.
    + intros P. exists t. split; [constructor|auto].
    + intros (t1 & P1 & P2). inversion P1; subst. auto.
  - split.
    + intros P. inversion P as [|? ? ? t' A1 A2 A3 A4]; subst. apply IH in A4. destruct A4 as (t1 & P1 & P2).
      exists t1. split; auto. eapply prep_cons; eauto.
    + intros (t1 & P1 & P2). inversion P1 as [|? ? ? t' A1 A2 A3 A4]; subst. eapply prep_cons; eauto. apply IH. eauto.
Qed.

Lemma prepQ_le_end : forall cl Q e l t, prepQ cl Q e l t -> Forall (fun q => time q <= e) l.
Proof.
  intros cl Q e l t P. induction P; constructor; auto.
  pose proof (prepQ_le _ _ _ _ _ P). qlra.
Qed.

Lemma prepQ_front : forall cl Q e p l t, prepQ cl Q e (p :: l) t -> time p = t.
Proof. intros cl Q e p l t P. inversion P; auto. Qed.

Lemma prepQ_drepQ_aux : forall Q l t1 bx b e,
  prepQ true Q t1 l bx -> l <> [] -> bx <= b -> b <= e -> e <= t1 ->
  Forall (fun q => time q <= e) l -> drepQ true Q b (rev l) e.
Proof.
  intros Q l. induction l as [|p l IH] using rev_ind; intros t1 bx b e P N H1 H2 H3 F; [congruence|].
  rewrite rev_app_distr. cbn [rev app].
  apply prepQ_app in P. destruct P as (t' & P1 & P2).
  inversion P2 as [|? ? ? t2 A1 A2 A3 A4]; subst. inversion A4; subst.
  rewrite Forall_app in F. destruct F as [F1 F2]. inversion F2 as [|? ? F3 F4]; subst.
  destruct (Qclt_le_dec b (time p)) as [C|C].
  - apply drep_step; auto.
    + intros u U1 U2. apply A3; auto. cbn in *. qlra.
    + apply (IH (time p) bx); auto; try qlra.
      * intros ->. inversion P1; subst. qlra.
      * eapply prepQ_le_end; eauto.
  - apply drep_last; auto. intros u U1 U2. apply A3; cbn in *; qlra.
Qed.

Lemma prepQ_drepQ : forall Q l1 l2 ex bx b e,
  prepQ true Q ex (l1 ++ l2) bx -> l1 <> [] -> bx <= b -> b <= e -> e <= ex ->
  Forall (fun q => time q <= e) l1 -> Forall (fun q => e <= time q) l2 ->
  drepQ true Q b (rev l1) e.
Proof.
  intros Q l1 l2 ex bx b e P N H1 H2 H3 F1 F2.
  apply prepQ_app in P. destruct P as (t1 & P1 & P2).
  apply (prepQ_drepQ_aux Q l1 t1 bx); auto.
  inversion P2; subst; auto. inversion F2; subst; auto.
Qed.

Lemma split_lt : forall e l, ordered l ->
  exists l1 l2, l = l1 ++ l2 /\ Forall (fun q => time q < e) l1 /\ Forall (fun q => e <= time q) l2.
Proof.
  intros e. induction l as [|p l IH]; intros O.
  - exists [], []. auto.
  - destruct O as [O1 O2]. destruct (Qclt_le_dec (time p) e) as [C|C].
    + destruct (IH O2) as (l1 & l2 & E & F1 & F2). exists (p :: l1), l2. rewrite E. auto.
    + exists [], (p :: l). split; auto. split; auto. constructor; auto.
      eapply Forall_le_le; eauto.
Qed.

Lemma skip_unguarded_split : forall e l1 l2, l1 <> [] ->
  Forall (fun q : smp => time q < e) l1 -> Forall (fun q => e <= time q) l2 ->
  skip_unguarded e (rev (l1 ++ l2)) = Ok (rev l1).
Proof.
  intros e l1 l2 N F1. induction l2 as [|q l2 IH] using rev_ind; intros F2.
  - rewrite app_nil_r. destruct (exists_last N) as (l & p & ->). rewrite rev_app_distr. cbn [rev app skip_unguarded].
    rewrite Forall_app in F1. destruct F1 as [_ F1]. inversion F1; subst.
    qcase; [exfalso; qlra|reflexivity].
  - rewrite app_assoc, rev_app_distr. cbn [rev app skip_unguarded].
    rewrite Forall_app in F2. destruct F2 as [F2 F3]. inversion F3; subst.
    qcase; [|exfalso; qlra]. apply IH; auto.
Qed.

(** ** Results of the sweeps *)

Record qres (z : signal Qc) (b e : Qc) (Q : Qc -> Qc -> Prop) : Prop := {
  qr_begin : beginTime z = b;
  qr_end : endTime z = e;
  qr_rep : crepQ Q z;
  qr_front : front1 z;
  qr_ends : ends z
}.

Lemma qres_impl : forall z b e (Q Q' : Qc -> Qc -> Prop), qres z b e Q ->
  (forall u v, b <= u -> u <= e -> Q u v -> Q' u v) -> qres z b e Q'.
Proof.
  intros z b e Q Q' [A1 A2 [A3 A4] A5 A6] H. subst b e. constructor; auto. split; auto.
  eapply prepQ_impl; eauto.
Qed.

Lemma simplify_qres : forall p z b e Q, time p = b -> b <= e -> Forall (fun q => b < time q) z ->
  arep true Q b e (p :: z) b ->
  exists z', simplify (mkSig (p :: z) b e) = Ok z' /\ qres z' b e Q.
Proof.
  intros p z b e Q Hp Hbe F [R1 R2].
  destruct (simplify_ok p z b e) as (l' & S1 & S2 & S3 & S4 & S5 & S6 & S7 & S8 & S9); auto.
  { eapply prepQ_ordered; eauto. }
  eexists; split; [exact S1|]. constructor; cbn [samples beginTime endTime]; auto.
  - split; [discriminate|]. apply S8. auto.
  - exists p, l'. auto.
  - pose proof (prepQ_le_end _ _ _ _ _ R1) as L. inversion L; subst. destruct S9 as (q & Q1 & Q2); auto. exists q. auto.
Qed.

Lemma partial_and_point_rep : forall P (Q : Qc -> Qc -> Prop) p i q j b,
  merged true P b (p :: i) (q :: j) b -> time p <= b -> time q <= b ->
  (forall v w, P b v w -> Q b (qmin v w)) ->
  exists r, computePartialAnd [] (p :: i) (q :: j) b b = Ok [r] /\ time r = b /\
    prepQ true Q b [r] b.
Proof.
  intros P Q p i q j b D Hp Hq HQ.
  destruct (partial_and_point p i q j b) as (r & E & T & L); auto.
  exists r. split; [exact E|]. split; [auto|].
  eapply prep_cons; [auto| |..|constructor]; [qlra|].
  intros u U1 U2. cbn in U2. assert (u = b) by qlra. subst u. rewrite L. apply HQ.
  eapply merged_pair; eauto; cbn; qlra.
Qed.

(** The common core: the lists kept by the skips. *)
Lemma and_core_q : forall P (Q : Qc -> Qc -> Prop) i j b e, b <= e ->
  merged true P b i j e ->
  (forall u v w, b <= u -> u <= e -> P u v w -> Q u (qmin v w)) ->
  hd_lt b e i -> hd_lt b e j ->
  exists z, (z <- computePartialAnd [] i j b e ;; simplify (mkSig z b e)) = Ok z /\ qres z b e Q.
Proof.
  intros P Q i j b e Hbe D HQ Hi Hj.
  destruct (Qcle_lt_or_eq _ _ Hbe) as [Lt|Eq].
  - destruct (computePartialAnd_merged true Q b e P i j [] e) as (r & z & E1 & R1 & R2 & R3); auto; try qlra.
    { split; constructor. }
    rewrite E1. cbn [bind]. apply simplify_qres; auto.
  - subst e. destruct (merged_inv _ _ _ _ _ _ D) as (p & i' & q & j' & -> & ->).
    assert (Hp : time p <= b) by (destruct (Hi p _ eq_refl); qlra).
    assert (Hq : time q <= b) by (destruct (Hj q _ eq_refl); qlra).
    destruct (partial_and_point_rep P Q p i' q j' b) as (r & E1 & R1 & R2); auto.
    rewrite E1. cbn [bind]. apply simplify_qres; auto. split; auto.
    constructor; auto.
Qed.

Lemma hd_lt_split : forall b e l1, Forall (fun q : smp => time q < e) l1 -> hd_lt b e (rev l1).
Proof.
  intros b e l1 F p j E. left. rewrite Forall_forall in F. apply F. apply in_rev. rewrite E. simpl; auto.
Qed.

(** computeAnd on operands described by the pairs of pieces met by the sweep. *)
Lemma computeAnd_merged : forall x y P (Q : Qc -> Qc -> Prop) x1 x2 y1 y2,
  let b := qmax (beginTime x) (beginTime y) in
  let e := qmin (endTime x) (endTime y) in
  samples x = x1 ++ x2 -> x1 <> [] -> Forall (fun q => time q < e) x1 -> Forall (fun q => e <= time q) x2 ->
  samples y = y1 ++ y2 -> y1 <> [] -> Forall (fun q => time q < e) y1 -> Forall (fun q => e <= time q) y2 ->
  b <= e -> merged true P b (rev x1) (rev y1) e ->
  (forall u v w, b <= u -> u <= e -> P u v w -> Q u (qmin v w)) ->
  exists z, computeAnd x y = Ok z /\ qres z b e Q.
Proof.
  intros x y P Q x1 x2 y1 y2 b e X1 X2 X3 X4 Y1 Y2 Y3 Y4 Hbe D HQ.
  unfold computeAnd. cbv zeta. rewrite fmax_q, fmin_q. fold b e.
  rewrite X1, Y1, !skip_unguarded_split by auto. cbn [bind].
  eapply and_core_q; eauto using hd_lt_split.
Qed.

(** The head of a split that may consist of the first sample alone. *)
Lemma hd_lt_snoc : forall b e (l1 : list smp) p p0 l0, time p < e \/ l1 = [] ->
  l1 ++ [p] = p0 :: l0 -> time p0 <= b -> hd_lt b e (rev (l1 ++ [p])).
Proof.
  intros b e l1 p p0 l0 H E H0 q j Eq. rewrite rev_app_distr in Eq. cbn in Eq. inversion Eq; subst q.
  destruct H as [H| ->]; auto. right. cbn in E. inversion E; subst. auto.
Qed.

Section And.
Variables (x y : signal Qc) (Qx Qy Q : Qc -> Qc -> Prop).
Let b := qmax (beginTime x) (beginTime y).
Let e := qmin (endTime x) (endTime y).
Hypothesis Rx : crepQ Qx x.
Hypothesis Ry : crepQ Qy y.
Hypothesis Hbe : b <= e.

Lemma b_ge : beginTime x <= b /\ beginTime y <= b /\ e <= endTime x /\ e <= endTime y.
Proof.
  unfold b, e. destruct (qmax_cases (beginTime x) (beginTime y)) as [[-> ?]|[-> ?]];
  destruct (qmin_cases (endTime x) (endTime y)) as [[-> ?]|[-> ?]]; repeat split; qlra.
Qed.

Lemma snoc_drepQ : forall s Qs, crepQ Qs s -> beginTime s <= b -> e <= endTime s ->
  exists l1 p l2, skip_guarded e (rev (samples s)) = Ok (rev (l1 ++ [p])) /\
    samples s = l1 ++ p :: l2 /\
    drepQ true Qs b (rev (l1 ++ [p])) e /\ hd_lt b e (rev (l1 ++ [p])).
Proof.
  intros s Qs [N R] B1 B2.
  destruct (skip_guarded_ok e (samples s) N) as (l1 & p & l2 & E1 & E2 & E3 & E4).
  exists l1, p, l2. split; [exact E2|]. split; [exact E1|].
  destruct (samples s) as [|p0 l0] eqn:El; [congruence|].
  assert (T0 : time p0 <= b) by (rewrite (prepQ_front _ _ _ _ _ _ R); auto).
  assert (K : l1 ++ p :: l2 = (l1 ++ [p]) ++ l2) by (rewrite <- app_assoc; reflexivity).
  assert (H0 : exists l0', l1 ++ [p] = p0 :: l0').
  { destruct l1; cbn in *; inversion E1; subst; eauto. }
  destruct H0 as [l0' H0].
  assert (Hp : time p <= e).
  { destruct E3 as [E3| ->]; [qlra|]. cbn in H0. inversion H0; subst. qlra. }
  split.
  - rewrite E1, K in R. eapply prepQ_drepQ; eauto.
    + rewrite H0. discriminate.
    + rewrite Forall_app. split; auto.
      pose proof (prepQ_ordered _ _ _ _ _ R) as O. rewrite <- K in O. rewrite ordered_app in O. destruct O as (_ & _ & O).
      rewrite Forall_forall. intros q Hq. specialize (O q p Hq (or_introl eq_refl)). qlra.
  - eapply hd_lt_snoc; eauto.
Qed.

Lemma lt_drepQ : forall s Qs, crepQ Qs s -> beginTime s <= b -> e <= endTime s -> b < e ->
  exists l1 l2, samples s = l1 ++ l2 /\ l1 <> [] /\ Forall (fun q => time q < e) l1 /\
    Forall (fun q => e <= time q) l2 /\ drepQ true Qs b (rev l1) e.
Proof.
  intros s Qs [N R] B1 B2 Lt.
  destruct (split_lt e (samples s)) as (l1 & l2 & E1 & F1 & F2); [eapply prepQ_ordered; eauto|].
  assert (N1 : l1 <> []).
  { intros ->. cbn in E1. rewrite E1 in *. destruct l2 as [|p l2]; [congruence|].
    pose proof (prepQ_front _ _ _ _ _ _ R) as K. apply Forall_inv in F2. rewrite K in F2. qlra. }
  exists l1, l2. split; [auto|]. split; [auto|]. split; [auto|]. split; [auto|].
  rewrite E1 in R. eapply prepQ_drepQ; eauto.
  - eapply Forall_impl; [|exact F1]. intros; cbn in *; qlra.
Qed.

Hypothesis HQ : forall u v w, b <= u -> u <= e -> Qx u v -> Qy u w -> Q u (qmin v w).

Lemma compute_and_q : exists z, compute_and x y = Ok z /\ qres z b e Q.
Proof.
  destruct b_ge as (B1 & B2 & B3 & B4).
  unfold compute_and. cbv zeta. rewrite fmax_q, fmin_q. fold b e.
  destruct (snoc_drepQ x Qx) as (x1 & p & x2 & X1 & X2 & X3 & X4); auto.
  destruct (snoc_drepQ y Qy) as (y1 & q & y2 & Y1 & Y2 & Y3 & Y4); auto.
  rewrite X1. cbn [bind]. rewrite Y1. cbn [bind].
  eapply and_core_q with (P := fun u v w => Qx u v /\ Qy u w); eauto.
  - apply merged_of_drep; auto.
  - intros u v w U1 U2 [H1 H2]. auto.
Qed.

Lemma computeAnd_q : b < e -> exists z, computeAnd x y = Ok z /\ qres z b e Q.
Proof.
  intros Lt. destruct b_ge as (B1 & B2 & B3 & B4).
  destruct (lt_drepQ x Qx) as (x1 & x2 & X1 & X2 & X3 & X4 & X5); auto.
  destruct (lt_drepQ y Qy) as (y1 & y2 & Y1 & Y2 & Y3 & Y4 & Y5); auto.
  eapply computeAnd_merged with (P := fun u v w => Qx u v /\ Qy u w); eauto.
  - apply merged_of_drep; auto.
  - intros u v w U1 U2 [H1 H2]. auto.
Qed.
End And.

(** ** Negation and disjunction *)

Definition Qneg (Q : Qc -> Qc -> Prop) : Qc -> Qc -> Prop := fun u v => Q u (- v).

Lemma prepQ_neg : forall cl Q e l t, prepQ cl Q e l t -> prepQ cl (Qneg Q) e (negl l) t.
Proof.
  intros cl Q e l t P. induction P; cbn [map]; [constructor|].
  eapply prep_cons; eauto. intros u U1 U2. unfold Qneg. rewrite line_neg, Qcopp_involutive. auto.
Qed.

Lemma crepQ_neg : forall Q x, crepQ Q x -> crepQ (Qneg Q) (cnot x).
Proof.
  intros Q x [N R]. split; cbn [compute_not samples endTime beginTime].
  - destruct (samples x); [congruence|discriminate].
  - apply prepQ_neg. auto.
Qed.

Lemma ends_neg : forall x, ends x -> ends (cnot x).
Proof.
  intros x (q & Hq & T). exists (neg q). split; [|exact T].
  cbn [compute_not samples]. apply in_map. auto.
Qed.

Lemma front1_neg : forall x, front1 x -> front1 (cnot x).
Proof.
  intros x (p & l & E & T & F). exists (neg p), (negl l). cbn [compute_not samples beginTime]. rewrite E.
  split; [reflexivity|]. split; [exact T|]. rewrite Forall_map. exact F.
Qed.

Lemma qres_neg : forall z b e (Q Q' : Qc -> Qc -> Prop), qres z b e Q ->
  (forall u v, b <= u -> u <= e -> Q u v -> Q' u (- v)) -> qres (cnot z) b e Q'.
Proof.
  intros z b e Q Q' [A1 A2 A3 A4 A5] H. eapply (qres_impl _ _ _ (Qneg Q)).
  - constructor; auto using crepQ_neg, front1_neg, ends_neg.
  - intros u v U1 U2 K. unfold Qneg in K. rewrite <- (Qcopp_involutive v). auto.
Qed.

Lemma merged_neg : forall cl P b i j t, merged cl P b i j t ->
  merged cl (fun u v w => P u (- v) (- w)) b (negl i) (negl j) t.
Proof.
  intros cl P b i j t D.
  induction D; cbn [map].
  - apply m_end; auto. intros u U1 U2. rewrite !line_neg, !Qcopp_involutive. auto.
  - apply m_j; auto. intros u U1 U2. rewrite !line_neg, !Qcopp_involutive. auto.
  - apply m_i; auto. intros u U1 U2. rewrite !line_neg, !Qcopp_involutive. auto.
  - apply m_ij; auto. intros u U1 U2. rewrite !line_neg, !Qcopp_involutive. auto.
Qed.

Lemma computeOr_merged : forall x y P (Q : Qc -> Qc -> Prop) x1 x2 y1 y2,
  let b := qmax (beginTime x) (beginTime y) in
  let e := qmin (endTime x) (endTime y) in
  samples x = x1 ++ x2 -> x1 <> [] -> Forall (fun q => time q < e) x1 -> Forall (fun q => e <= time q) x2 ->
  samples y = y1 ++ y2 -> y1 <> [] -> Forall (fun q => time q < e) y1 -> Forall (fun q => e <= time q) y2 ->
  b <= e -> merged true P b (rev x1) (rev y1) e ->
  (forall u v w, b <= u -> u <= e -> P u v w -> Q u (qmax v w)) ->
  exists z, computeOr x y = Ok z /\ qres z b e Q.
Proof.
  intros x y P Q x1 x2 y1 y2 b e X1 X2 X3 X4 Y1 Y2 Y3 Y4 Hbe D HQ.
  rewrite computeOr_neg.
  destruct (computeAnd_merged (cnot x) (cnot y) (fun u v w => P u (- v) (- w)) (Qneg Q)
              (negl x1) (negl x2) (negl y1) (negl y2)) as (z & E & R);
    cbn [compute_not samples beginTime endTime]; try rewrite Forall_map; auto.
  - rewrite X1. apply map_app.
  - destruct x1; [congruence|discriminate].
  - rewrite Y1. apply map_app.
  - destruct y1; [congruence|discriminate].
  - rewrite <- !map_rev. apply merged_neg. auto.
  - intros u v w U1 U2 HP. unfold Qneg. specialize (HQ u (- v) (- w) U1 U2 HP).
    rewrite <- (Qcopp_involutive v), <- (Qcopp_involutive w), qmin_neg, Qcopp_involutive. auto.
  - rewrite E. exists (cnot z). split; [reflexivity|]. eapply qres_neg; [exact R|]. auto.
Qed.

Section Or.
Variables (x y : signal Qc) (Qx Qy Q : Qc -> Qc -> Prop).
Let b := qmax (beginTime x) (beginTime y).
Let e := qmin (endTime x) (endTime y).
Hypothesis Rx : crepQ Qx x.
Hypothesis Ry : crepQ Qy y.
Hypothesis Hbe : b <= e.
Hypothesis HQ : forall u v w, b <= u -> u <= e -> Qx u v -> Qy u w -> Q u (qmax v w).

Lemma neg_min : forall u v w, b <= u -> u <= e -> Qneg Qx u v -> Qneg Qy u w -> Qneg Q u (qmin v w).
Proof.
  intros u v w U1 U2 H1 H2. unfold Qneg in *. specialize (HQ u (- v) (- w) U1 U2 H1 H2).
  rewrite <- (Qcopp_involutive v), <- (Qcopp_involutive w), qmin_neg, Qcopp_involutive. auto.
Qed.

Lemma compute_or_q : exists z, compute_or x y = Ok z /\ qres z b e Q.
Proof.
  rewrite compute_or_neg.
  destruct (compute_and_q (cnot x) (cnot y) (Qneg Qx) (Qneg Qy) (Qneg Q)) as (z & E & R);
    auto using crepQ_neg, neg_min.
  rewrite E. exists (cnot z). split; [reflexivity|]. eapply qres_neg; [exact R|]. auto.
Qed.

Lemma computeOr_q : b < e -> exists z, computeOr x y = Ok z /\ qres z b e Q.
Proof.
  intros Lt. rewrite computeOr_neg.
  destruct (computeAnd_q (cnot x) (cnot y) (Qneg Qx) (Qneg Qy) (Qneg Q)) as (z & E & R);
    auto using crepQ_neg, neg_min.
  rewrite E. exists (cnot z). split; [reflexivity|]. eapply qres_neg; [exact R|]. auto.
Qed.
End Or.

(** ** Reading a signal of closed pieces *)

Lemma crep_eval : forall f x, crep f x ->
  forall u, beginTime x <= u -> u <= endTime x -> eval (samples x) u = Some (f u).
Proof.
  intros f x [N R] u U1 U2. destruct (Qcle_lt_or_eq _ _ U2) as [L| ->].
  - eapply prep_eval; eauto.
  - eapply prep_eval_end; eauto.
Qed.

Lemma crepQ_front : forall Q x, crepQ Q x -> exists p l, samples x = p :: l /\ time p = beginTime x /\
  Q (beginTime x) (value p).
Proof.
  intros Q x [N R]. destruct (samples x) as [|p l]; [congruence|].
  exists p, l. split; auto. inversion R as [|? ? ? t' A1 A2 A3 A4]; subst. split; auto.
  rewrite <- A1, <- (line_at p) at 1. rewrite A1. apply A3; cbn; qlra.
Qed.

Lemma crepQ_dom : forall Q x, crepQ Q x -> beginTime x <= endTime x.
Proof. intros Q x [N R]. eapply prepQ_le; eauto. Qed.

(** Every continuous ordered signal defined on its domain is of this form. *)
Lemma crep_of_cont : forall x p l, samples x = p :: l -> time p = beginTime x ->
  ordered (samples x) -> continuous (samples x) -> Forall (fun q => time q <= endTime x) (samples x) ->
  exists f, crep f x.
Proof.
  intros x p l E T O C F.
  exists (fun u => match eval (samples x) u with Some v => v | None => 0 end).
  split; [rewrite E; discriminate|]. rewrite <- T.
  assert (G : forall l1 p l, samples x = l1 ++ p :: l ->
    prepQ true (fun u v => match eval (samples x) u with Some v => v | None => 0 end = v) (endTime x) (p :: l) (time p)).
  { clear p l E T. intros l1 p l. revert l1 p. induction l as [|q l IH]; intros l1 p E.
    - rewrite E in F. rewrite Forall_app in F. destruct F as [_ F]. inversion F; subst.
      eapply prep_cons; [reflexivity| |..|constructor]; auto.
      intros u U1 U2. rewrite E, eval_back by auto. reflexivity.
    - assert (E' : samples x = (l1 ++ [p]) ++ q :: l) by (rewrite E, <- app_assoc; reflexivity).
      specialize (IH _ _ E').
      rewrite E in O, C. rewrite ordered_app in O. destruct O as (_ & (O1 & O2 & O3) & _).
      apply cont_app_r in C. inversion O1; subst. 
      eapply prep_cons; [reflexivity| |..|exact IH]; auto.
      intros u U1 U2. cbn in U2. destruct (Qcle_lt_or_eq _ _ U2) as [L|L].
      + rewrite E, eval_app, eval_cons_all; auto. constructor; auto. apply (Forall_lt_le l u (time q)); auto.
      + subst u. rewrite E, eval_app, eval_cons_some with (v := value q).
        * destruct C as [C _]. auto.
        * apply cont_eval_front; [split; auto|]. apply C. }
  specialize (G [] p l E). rewrite <- E in G. exact G.
Qed.

Lemma crep_cont : forall f x, crep f x -> continuous (samples x).
Proof. intros f x [N R]. exact (prep_cont _ _ _ _ R). Qed.
