(** The temporal operators on signals of constant pieces, which may jump. *)
From Coq Require Import List QArith Qcanon Bool.
From Verif Require Import Num Base Signal QcTac Spec Robust Repr AndProof NegProof Lip BoolOps Closed SigProof NegTimed EvProof TimedProof UntilProof UntilTimed Front UntilFront TreeRob StepSig StepOr StepBounded StepTimed StepBool StepUntil StairSpec.
Import ListNotations.
Local Open Scope Qc_scope.

Lemma stairs_step : forall x f, stairs x -> (forall t, beginTime x <= t -> t <= endTime x -> denotes (samples x) t (f t)) -> step x f.
Proof.
  intros x f (I & Z & F & L) V. constructor; auto. intros u U1 U2. apply eval_denotes. auto.
Qed.
Lemma stairs_neg : forall x, stairs x -> stairs (cnot x).
Proof.
  intros x (I & Z & (p & l & E & T) & L). unfold stairs. cbn [compute_not samples beginTime endTime]. split.
  { clear - I. induction (samples x) as [|q l IH]; cbn; auto. destruct I as [I1 I2]. split; auto. rewrite Forall_map. exact I1. }
  split; [rewrite Forall_map; eapply Forall_impl; [|exact Z]; cbn; intros q K; rewrite K; reflexivity|].
  split; [exists (neg p), (negl l); rewrite E; split; [reflexivity|exact T]|]. rewrite Forall_map. exact L.
Qed.

Lemma stairs_ev : forall M self x f a b, stairs x ->
  (forall t, beginTime x <= t -> t <= endTime x -> denotes (samples x) t (f t) /\ - M <= f t) ->
  0 <= a -> a <= b ->
  exists z, compute_timed_eventually M self x a b = Ok z /\
    beginTime z = beginTime x - a /\ endTime z = endTime x - a /\ ordered (samples z) /\
    forall t, beginTime z <= t -> t <= endTime z -> t + b <= endTime x \/ endTime x - beginTime x <= b - a \/ a = b ->
      exists v, denotes (samples z) t v /\ is_sup f (t + a) (qmin (t + b) (endTime x)) v.
Proof.
  intros M self x f a b St V Ha Hab.
  assert (Sx : step x f) by (apply stairs_step; auto; intros; apply V; auto).
  unfold compute_timed_eventually.
  assert (Y : exists y, (if nltb n0 a then shift x (nopp a) else x) = y /\ step y (fun u => f (u + a)) /\ beginTime y = beginTime x - a /\ endTime y = endTime x - a).
  { eexists. split; [reflexivity|]. destruct (nltb n0 a) eqn:B.
    - split; [|cbn [shift beginTime endTime]; unfold nadd, nopp; cbn [NumQc]; split; ring].
      pose proof (step_shift x f (nopp a) Sx) as [I Z F En Ev]. constructor; auto. intros u U1 U2. rewrite Ev by auto. f_equal. f_equal.
      unfold nopp; cbn [NumQc]. ring.
    - qb. assert (A0 : a = 0) by (change n0 with 0 in B; qlra). subst a. split; [|split; ring].
      destruct Sx as [I Z F En Ev]. constructor; auto. intros u U1 U2. rewrite Ev by auto. f_equal. f_equal. ring. }
  destruct Y as (y & -> & Sy & By & Ey).
  destruct (samples x) as [|p0 l0] eqn:Es. { destruct Sx as [_ _ (p & l & K' & _) _ _]. congruence. }
  assert (FBy : forall u, beginTime y <= u -> u <= endTime y -> - M <= f (u + a)).
  { intros u U1 U2. apply V; qlra. }
  clear p0 l0 Es V.
  change (nsub b a) with (b - a). change n0 with 0 in *. qtest (nleb (b - a) 0).
  - assert (Eab : b = a) by qlra. subst b. exists y. split; [auto|]. split; [auto|]. split; [auto|].
    split; [apply increasing_ordered, Sy|]. intros t T1 T2 _. exists (f (t + a)). split; [apply eval_denotes; apply Sy; auto|].
    rewrite TreeRob.qmin_l by qlra. apply is_sup_point.
  - change (nsub (endTime y) (beginTime y)) with (endTime y - beginTime y). qtest (nleb (endTime y - beginTime y) (b - a)).
    + pose proof (step_domain y _ Sy) as Bd. pose proof Sy as [I Z (p0 & l0 & E & T) En Ev].
      destruct (eventually_claim M y (fun u => f (u + a)) p0 l0) as (z & E1 & B1 & B2 & O & W); auto.
      { intros t T1 T2. split; auto. apply eval_denotes. auto. }
      exists z. split; [exact E1|]. split; [congruence|]. split; [congruence|]. split; [auto|].
      intros t T1 T2 _. rewrite B1 in T1. rewrite B2 in T2. destruct (W t T1 T2) as (v & W1 & W2). exists v. split; [auto|].
      apply (is_sup_shift f a) in W2. rewrite qmin_r by qlra. rewrite Ey in W2. replace (endTime x - a + a) with (endTime x) in W2 by ring. exact W2.
    + destruct (bounded_step M (b - a) (fun u => f (u + a)) y Sy) as (z0 & g & C1 & [H1 H2 H3 H4 H5 H6 H7] & C2); auto; try qlra.
      exists z0. split; [auto|]. split; [congruence|]. split; [congruence|]. split; [apply increasing_ordered; auto|].
      intros t T1 T2 K. rewrite H1 in T1. rewrite H2 in T2. assert (K' : t + b <= endTime x) by (destruct K as [K|[K|K]]; auto; exfalso; qlra).
      exists (g t). split; [apply eval_denotes; apply H7; qlra|]. rewrite TreeRob.qmin_l by auto.
      destruct (C2 t T1 ltac:(qlra)) as [(r & R1 & R2 & R3) C3]. apply is_sup_of.
      * exists (r + a). split; [qlra|]. split; [qlra|auto].
      * intros t' S1 S2. specialize (C3 (t' - a) ltac:(qlra) ltac:(qlra)). replace (t' - a + a) with t' in C3 by ring. auto.
Qed.

Lemma stairs_alw : forall M self x f a b, stairs x ->
  (forall t, beginTime x <= t -> t <= endTime x -> denotes (samples x) t (f t) /\ f t <= M) ->
  0 <= a -> a <= b ->
  exists z, compute_timed_globally M self x a b = Ok z /\
    beginTime z = beginTime x - a /\ endTime z = endTime x - a /\ ordered (samples z) /\
    forall t, beginTime z <= t -> t <= endTime z -> t + b <= endTime x \/ endTime x - beginTime x <= b - a \/ a = b ->
      exists v, denotes (samples z) t v /\ is_inf f (t + a) (qmin (t + b) (endTime x)) v.
Proof.
  intros M self x f a b St V Ha Hab. rewrite timed_globally_dual.
  destruct (stairs_ev M (cnot self) (cnot x) (fun u => - f u) a b (stairs_neg _ St)) as (z & H1 & H2 & H3 & H4 & H5); auto.
  { intros t T1 T2. destruct (V t T1 T2) as [V1 V2]. split; [|qlra]. apply eval_denotes. cbn [compute_not samples]. rewrite eval_neg.
    apply eval_denotes in V1. rewrite V1. reflexivity. }
  exists (cnot z). rewrite H1. split; [reflexivity|]. split; [exact H2|]. split; [exact H3|]. split; [apply ordered_neg; exact H4|].
  intros t T1 T2 K. destruct (H5 t T1 T2 K) as (v & W1 & W2). exists (- v). split.
  - apply eval_denotes. cbn [compute_not samples]. rewrite eval_neg. apply eval_denotes in W1. rewrite W1. reflexivity.
  - apply is_sup_neg in W2. exact W2.
Qed.

(** ** Until *)
Lemma front_first : forall s v z, jfront s v z -> beginTime z = s -> exists d l, samples z = mkS s v d :: l.
Proof.
  intros s v z (_ & _ & f & l & E & T & (_ & G & _) & _) B. exists (deriv f), l. rewrite E. destruct f. cbn in *. congruence.
Qed.
Lemma no_jump_quiet : forall g b e, no_jump_at g e -> quiet g b e.
Proof. intros g b e (d & D & H). right. exists d. auto. Qed.

Lemma stairs_until : forall M x y f g, stairs x -> stairs y ->
  let b := beginTime y in let e := endTime y in
  beginTime x <= b -> endTime x = e -> b < e -> no_jump_at g e ->
  (forall t, beginTime x <= t -> t <= endTime x -> denotes (samples x) t (f t) /\ - M <= f t) ->
  (forall t, beginTime y <= t -> t <= endTime y -> denotes (samples y) t (g t) /\ - M <= g t) ->
  exists z v d l, compute_until M empty_signal x y = Ok z /\ beginTime z = b /\ endTime z = e /\
    samples z = mkS b v d :: l /\ is_until f g b b e v.
Proof.
  intros M x y f g Sx Sy b e Bx Ex L (d & D & NJ) Vx Vy.
  assert (Px : step x f) by (apply stairs_step; auto; intros; apply Vx; auto).
  assert (Py : step y g) by (apply stairs_step; auto; intros; apply Vy; auto).
  destruct (until_step_front M f g x y b e Px Py Bx eq_refl Ex eq_refl L) as (z & v & E & Z1 & Z2 & J & S).
  { intros u U1 U2. apply Vx; [qlra|rewrite Ex; auto]. }
  destruct (front_first b v z J Z1) as (c & l & Es). exists z, v, c, l. split.
  { rewrite <- E. unfold compute_until, computeUntil. destruct (st_front _ _ Px) as (px & lx & Fx & _). destruct (st_front _ _ Py) as (py & ly & Fy & _).
    rewrite Fx, Fy. reflexivity. }
  split; [auto|]. split; [auto|]. split; [auto|].
  assert (HI : forall u t, b <= u -> u <= t -> t <= e -> is_inf f u t (lowest f (samples x) u t)).
  { intros u t H1 H2 H3. apply lowest_step; auto; qlra. }
  exists (lowest f (samples x) b). split; [intros u U1 U2; apply HI; auto; apply Qcle_refl|].
  unfold sofar in S. destruct (proj1 (S v) (Qcle_refl _)) as [S1 S2]. split.
  - intros u U1 U2. destruct (Qclt_le_dec u e) as [K|K]; [auto|]. assert (u = e) by qlra. subst u.
    assert (exists r, b <= r /\ e - d <= r /\ r < e) as (r & R1 & R2 & R3).
    { destruct (Qclt_le_dec (e - d) b) as [K1|K1]; [exists b|exists (e - d)]; repeat split; try qlra; apply Qcle_refl. }
    eapply Qcle_trans; [|apply (S2 r R1 R3)]. rewrite (NJ r) by qlra.
    pose proof (inf_anti f b e _ HI b r e ltac:(qlra) R1 ltac:(qlra) ltac:(qlra)) as A.
    apply le_min. split; apply min_le; [left; apply Qcle_refl|right; auto].
  - intros w W. apply S. split; [|intros u U1 U2; apply W; auto; qlra].
    eapply Qcle_trans; [|apply (W b); qlra]. apply le_min. split; [apply Vy; unfold b, e in *; qlra|].
    destruct (HI b b) as [_ K]; try qlra. apply K. intros r R1 R2. apply Vx; [qlra|rewrite Ex; qlra].
Qed.

Lemma stairs_timed_until : forall M self x y f g a d, stairs x -> stairs y ->
  let b := beginTime x in let e := endTime x in
  0 <= a -> a < d -> 0 <= b -> beginTime y = b + a -> endTime y = e -> b + d <= e -> (b + d = e -> no_jump_at g e) ->
  (forall t, beginTime x <= t -> t <= endTime x -> denotes (samples x) t (f t) /\ - M <= f t /\ f t <= M) ->
  (forall t, beginTime y <= t -> t <= endTime y -> denotes (samples y) t (g t) /\ - M <= g t) ->
  exists z v c l, compute_timed_until M self x y a d = Ok z /\ beginTime z = b /\
    samples z = mkS b v c :: l /\ is_until f g b (b + a) (b + d) v.
Proof.
  intros M self x y f g a d Sx Sy b e A0 Ad B0 By Ey L NJ Vx Vy.
  assert (Px : step x f) by (apply stairs_step; auto; intros; apply Vx; auto).
  assert (Py : step y g) by (apply stairs_step; auto; intros; apply Vy; auto).
  assert (Ee : e = e - d + d) by ring.
  destruct (timed_until_step M self f g x y a d b (e - d) Px Py eq_refl By ltac:(rewrite <- Ee; reflexivity) ltac:(rewrite <- Ee; exact Ey) A0 Ad B0 ltac:(qlra)) as (z & v & E & Z1 & J & h & W1 & W2).
  { intros u U1 U2. apply Vx; auto. rewrite <- Ee in U2. exact U2. }
  { intros u U1 U2. apply Vy; [rewrite By; auto|rewrite Ey; qlra]. }
  { intros K. rewrite <- Ee. apply no_jump_quiet, NJ. qlra. }
  destruct (front_first b v z J Z1) as (c & l & Es). exists z, v, c, l. split; [exact E|]. split; [auto|]. split; [auto|].
  rewrite TreeRob.qmin_l in W2 by qlra. exists h. split; [intros u U1 U2; apply W1; auto; qlra|exact W2].
Qed.
