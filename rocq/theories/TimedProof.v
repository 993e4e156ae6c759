(** Timed eventually and always on signals of closed pieces. *)
From Coq Require Import List QArith Qcanon Bool Lia.
From Verif Require Import Num Base Signal QcTac Spec Robust Repr AndProof NegProof SimplifyProof Lip BoolOps Closed SigProof ResizeProof NegTimed EvProof PlateauProof BoundedProof.
Import ListNotations.
Local Open Scope Qc_scope.

Lemma is_sup_ext : forall f g lo hi v, (forall u, lo <= u -> u <= hi -> f u = g u) -> is_sup f lo hi v -> is_sup g lo hi v.
Proof.
  intros f g lo hi v E [H1 H2]. split.
  - intros u U1 U2. rewrite <- E by auto. auto.
  - intros w W. apply H2. intros u U1 U2. rewrite E by auto. auto.
Qed.

Lemma is_sup_shift : forall f a lo hi v, is_sup (fun u => f (u + a)) lo hi v -> is_sup f (lo + a) (hi + a) v.
Proof.
  intros f a lo hi v [H1 H2]. split.
  - intros u U1 U2. replace u with (u - a + a) by ring. apply H1; qlra.
  - intros w W. apply H2. intros u U1 U2. apply W; qlra.
Qed.

Lemma is_sup_neg : forall f lo hi v, is_sup (fun u => - f u) lo hi v -> is_inf f lo hi (- v).
Proof.
  intros f lo hi v [H1 H2]. split.
  - intros u U1 U2. specialize (H1 u U1 U2). qlra.
  - intros w W. assert (v <= - w); [|qlra]. apply H2. intros u U1 U2. specialize (W u U1 U2). qlra.
Qed.

Lemma is_sup_point : forall f t, is_sup f t t (f t).
Proof.
  intros f t. split.
  - intros u U1 U2. replace u with t by qlra. qlra.
  - intros w W. apply W; qlra.
Qed.

(** Hypothesis on the window: if it is shorter than the domain, there is data to
    read at its right end. *)
Definition late_for (xf : Qc -> Qc) (x : signal Qc) (d : Qc) : Prop :=
  0 < d -> d < endTime x - beginTime x -> late xf x (beginTime x + d).

Lemma late_shift : forall xf x a d, late_for xf x d -> late_for (fun u => xf (u + a)) (shift x (- a)) d.
Proof.
  intros xf x a d H D1 D2. unfold shift, nadd in *. cbn [samples beginTime endTime NumQc] in *.
  destruct H as [(q & J & T)|H]; [auto|qlra| |].
  - left. exists (shift_sample (- a) q). split; [apply in_map; auto|].
    unfold shift_sample, nadd. cbn [time NumQc]. qlra.
  - right. intros u U1 U2. cbn [samples beginTime endTime] in *. rewrite (H (u + a)) by qlra. symmetry. apply H; qlra.
Qed.

Lemma timed_ev_q : forall M self xf x a b, crep xf x -> 0 <= a -> a <= b ->
  (forall u, beginTime x <= u -> u <= endTime x -> - M <= xf u) -> late_for xf x (b - a) ->
  exists z, compute_timed_eventually M self x a b = Ok z /\
    beginTime z = beginTime x - a /\ endTime z = endTime x - a /\
    crepQ (fun u v => is_sup xf (u + a) (qmin (u + b) (endTime x)) v) z /\
    (b = a -> z = shift x (- a)) /\ (0 < b - a -> b - a < endTime x - beginTime x -> ends z /\ front1 z).
Proof.
  intros M self xf x a b R A1 A2 FB L. unfold compute_timed_eventually.
  pose proof (crepQ_dom _ _ R) as Dm.
  assert (Y : exists y, (if nltb n0 a then shift x (nopp a) else x) = y /\ y = shift x (- a)).
  { eexists. split; [reflexivity|]. change n0 with 0. qtest (nltb 0 a); [reflexivity|].
    assert (a = 0) by qlra. subst a. destruct x as [xs xb xe]. unfold shift. cbn [samples beginTime endTime].
    f_equal.
    - symmetry. rewrite <- (map_id xs) at 2. apply map_ext. intros [t v d]. unfold shift_sample, nadd. cbn [time value deriv NumQc].
      f_equal. ring.
    - unfold nadd. cbn [NumQc]. ring.
    - unfold nadd. cbn [NumQc]. ring. }
  destruct Y as (y & -> & Hy).
  assert (Ry : crep (fun u => xf (u + a)) y).
  { subst y. pose proof (crepQ_shift _ _ (- a) R) as [N K]. split; auto. eapply prepQ_impl; [exact K|].
    intros u v U1 U2 H. cbn beta in *. replace (u - - a) with (u + a) in H by ring. auto. }
  assert (By : beginTime y = beginTime x - a) by (subst y; reflexivity).
  assert (Ey : endTime y = endTime x - a) by (subst y; reflexivity).
  assert (FBy : forall u, beginTime y <= u -> u <= endTime y -> - M <= xf (u + a)).
  { intros u U1 U2. apply FB; qlra. }
  assert (Ly : late_for (fun u => xf (u + a)) y (b - a)) by (subst y; apply late_shift; auto).
  destruct (samples x) as [|p0 l0] eqn:Es; [destruct R; congruence|].
  change (nsub b a) with (b - a). change n0 with 0.
  qtest (nleb (b - a) 0).
  - assert (b = a) by qlra. subst b. exists y. split; [reflexivity|]. split; [auto|]. split; [auto|]. split.
    + destruct Ry as [N K]. split; auto. eapply prepQ_impl; [exact K|]. intros u v U1 U2 <-. cbn beta. cbn in U2.
      rewrite qmin_l by qlra. apply is_sup_point.
    + split; [auto|]. intros D. exfalso. qlra.
  - change (nsub (endTime y) (beginTime y)) with (endTime y - beginTime y).
    qtest (nleb (endTime y - beginTime y) (b - a)).
    + destruct (computeEventually_q M _ y Ry FBy) as (z & E & B1 & B2 & Rz).
      exists z. split; [exact E|]. split; [congruence|]. split; [congruence|]. split.
      * destruct Rz as [N K]. split; auto. rewrite B1, B2 in *. eapply prepQ_impl; [exact K|].
        intros u v U1 U2 H. cbn beta in H. cbn in U2. apply (is_sup_shift xf a) in H.
        replace (endTime y + a) with (endTime x) in H by (rewrite Ey; ring). rewrite qmin_r by qlra. auto.
      * split; [intros ->; exfalso; qlra|]. intros D1 D2. exfalso. qlra.
    + destruct (bounded_ev True M (fun u => xf (u + a)) y (b - a) Ry) as (z & E & [B1 B2 Rz Fz Nz]); auto; try qlra.
      exists z. split; [exact E|]. split; [congruence|]. split; [congruence|]. split; [|split; [|auto]].
      * destruct Rz as [N K]. split; auto. rewrite B1, B2 in *. eapply prepQ_impl; [exact K|].
        intros u v U1 U2 H. cbn beta in H. cbn in U2. specialize (H (or_introl I)). apply (is_sup_shift xf a) in H.
        replace (qmin (u + (b - a)) (endTime y) + a) with (qmin (u + b) (endTime x)) in H; auto.
        destruct (qmin_cases (u + b) (endTime x)) as [[-> ?]|[-> ?]].
        -- rewrite qmin_l by qlra. ring.
        -- rewrite qmin_r by qlra. rewrite Ey. ring.
      * intros ->. exfalso. qlra.
Qed.

Lemma crep_neg_fn : forall f x, crep f x -> crep (fun u => - f u) (cnot x).
Proof.
  intros f x R. apply crepQ_neg in R. destruct R as [N K]. split; auto.
  eapply prepQ_impl; [exact K|]. intros u v U1 U2 H. unfold Qneg in H. cbn beta. qlra.
Qed.

Lemma late_neg : forall xf x d, late_for xf x d -> late_for (fun u => - xf u) (cnot x) d.
Proof.
  intros xf x d H D1 D2. destruct (H D1 D2) as [(q & J & T)|K].
  - left. exists (neg q). split; [cbn [compute_not samples]; apply in_map; auto|exact T].
  - right. intros u U1 U2. rewrite (K u) by auto. reflexivity.
Qed.

Lemma timed_alw_q : forall M self xf x a b, crep xf x -> 0 <= a -> a <= b ->
  (forall u, beginTime x <= u -> u <= endTime x -> xf u <= M) -> late_for xf x (b - a) ->
  exists z, compute_timed_globally M self x a b = Ok z /\
    beginTime z = beginTime x - a /\ endTime z = endTime x - a /\
    crepQ (fun u v => is_inf xf (u + a) (qmin (u + b) (endTime x)) v) z /\
    (b = a -> z = shift x (- a)) /\ (0 < b - a -> b - a < endTime x - beginTime x -> ends z /\ front1 z).
Proof.
  intros M self xf x a b R A1 A2 FB L. rewrite timed_globally_dual.
  destruct (timed_ev_q M (cnot self) (fun u => - xf u) (cnot x) a b) as (z & E & B1 & B2 & Rz & Sz & Nz); auto using crep_neg_fn, late_neg.
  { intros u U1 U2. specialize (FB u U1 U2). qlra. }
  rewrite E. exists (cnot z). split; [reflexivity|]. split; [exact B1|]. split; [exact B2|]. split; [|split].
  - apply crepQ_neg in Rz. destruct Rz as [N K]. split; auto.
    eapply prepQ_impl; [exact K|]. intros u v U1 U2 H. unfold Qneg in H. cbn beta in *.
    apply is_sup_neg in H. rewrite Qcopp_involutive in H. exact H.
  - intros D. rewrite (Sz D). rewrite shift_neg, cnot_cnot. reflexivity.
  - intros D1 D2. destruct (Nz D1 D2). auto using ends_neg, front1_neg.
Qed.

(** ** In the vocabulary of Spec.v *)

Lemma simple_crep : forall x f, simple x -> (forall t, beginTime x <= t -> t <= endTime x -> denotes (samples x) t (f t)) ->
  crep f x.
Proof.
  intros x f ((p & l & E & T) & O & C & F) H.
  destruct (crep_of_cont x p l) as (g & [N K]); auto. split; auto.
  eapply prep_ext; [exact K|]. intros u U1 U2. cbn in U2. specialize (H u U1 U2).
  pose proof (crep_eval g x (conj N K) u U1 U2) as V. apply eval_denotes in H. congruence.
Qed.

Lemma timed_ev_claim : forall M self x f a b, simple x ->
  (forall t, beginTime x <= t -> t <= endTime x -> denotes (samples x) t (f t) /\ - M <= f t) ->
  0 <= a -> a <= b ->
  (b - a < endTime x - beginTime x ->
     (exists q, In q (samples x) /\ beginTime x + (b - a) <= time q) \/
     (forall u, beginTime x + (b - a) <= u -> u <= endTime x -> f u = f (beginTime x + (b - a)))) ->
  exists z, compute_timed_eventually M self x a b = Ok z /\
    beginTime z = beginTime x - a /\ endTime z = endTime x - a /\ ordered (samples z) /\
    forall t, beginTime z <= t -> t <= endTime z ->
      exists v, denotes (samples z) t v /\ is_sup f (t + a) (qmin (t + b) (endTime x)) v.
Proof.
  intros M self x f a b S H A1 A2 L.
  assert (R : crep f x) by (apply simple_crep; auto; intros t T1 T2; apply H; auto).
  destruct (timed_ev_q M self f x a b) as (z & E & B1 & B2 & Rz & _); auto.
  - intros u U1 U2. apply H; auto.
  - intros _ D. apply L. auto.
  - exists z. split; [auto|]. split; [auto|]. split; [auto|]. split; [destruct Rz as [_ K]; eapply prepQ_ordered; eauto|].
    intros t T1 T2. destruct (crepQ_eval _ _ Rz t T1 T2) as (v & V1 & V2). exists v. split; auto. apply eval_denotes. auto.
Qed.

Lemma timed_alw_claim : forall M self x f a b, simple x ->
  (forall t, beginTime x <= t -> t <= endTime x -> denotes (samples x) t (f t) /\ f t <= M) ->
  0 <= a -> a <= b ->
  (b - a < endTime x - beginTime x ->
     (exists q, In q (samples x) /\ beginTime x + (b - a) <= time q) \/
     (forall u, beginTime x + (b - a) <= u -> u <= endTime x -> f u = f (beginTime x + (b - a)))) ->
  exists z, compute_timed_globally M self x a b = Ok z /\
    beginTime z = beginTime x - a /\ endTime z = endTime x - a /\ ordered (samples z) /\
    forall t, beginTime z <= t -> t <= endTime z ->
      exists v, denotes (samples z) t v /\ is_inf f (t + a) (qmin (t + b) (endTime x)) v.
Proof.
  intros M self x f a b S H A1 A2 L.
  assert (R : crep f x) by (apply simple_crep; auto; intros t T1 T2; apply H; auto).
  destruct (timed_alw_q M self f x a b) as (z & E & B1 & B2 & Rz & _); auto.
  - intros u U1 U2. apply H; auto.
  - intros _ D. apply L. auto.
  - exists z. split; [auto|]. split; [auto|]. split; [auto|]. split; [destruct Rz as [_ K]; eapply prepQ_ordered; eauto|].
    intros t T1 T2. destruct (crepQ_eval _ _ Rz t T1 T2) as (v & V1 & V2). exists v. split; auto. apply eval_denotes. auto.
Qed.
