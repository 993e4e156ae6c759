(** Timed eventually and always on step signals. *)
From Coq Require Import List QArith Qcanon Bool Lia.
From Verif Require Import Num Base Signal QcTac Spec Robust Repr AndProof NegProof SimplifyProof Lip BoolOps Closed SigProof ResizeProof EvProof PlateauProof BoundedProof NegTimed TimedProof NodeProof StepPlateau StepSig StepOr StepBounded.
Import ListNotations.
Local Open Scope Qc_scope.

Lemma step_shift : forall x f d, step x f -> step (shift x d) (fun u => f (u - d)).
Proof.
  intros x f d [I Z (p & l & E & T) En Ev]. constructor; unfold shift; cbn [samples beginTime endTime].
  - apply inc_shift; auto.
  - apply flat_shift; auto.
  - rewrite E. cbn [map]. eexists _, _. split; [reflexivity|]. cbn. rewrite T. reflexivity.
  - rewrite Forall_map. eapply Forall_impl; [|exact En]. intros q Hq. cbn in *. unfold nadd; cbn [NumQc]. qlra.
  - intros u U1 U2. unfold nadd in *; cbn [NumQc] in *. replace u with ((u - d) + d) at 1 by ring. rewrite eval_shift. apply Ev; qlra.
Qed.

Lemma step_neg : forall x f, step x f -> step (cnot x) (fun u => - f u).
Proof.
  intros x f [I Z (p & l & E & T) En Ev]. constructor; unfold compute_not; cbn [samples beginTime endTime].
  - clear -I. induction (samples x) as [|q l IH]; cbn; auto. destruct I as [I1 I2]. split; auto. rewrite Forall_map. exact I1.
  - unfold flat in *. rewrite Forall_map. eapply Forall_impl; [|exact Z]. intros q Hq. cbn. unfold nopp; cbn [NumQc]. rewrite Hq. ring.
  - rewrite E. cbn [map]. eauto.
  - rewrite Forall_map. exact En.
  - intros u U1 U2. change (eval (negl (samples x)) u = Some (- f u)). rewrite eval_neg, Ev by auto. reflexivity.
Qed.

(** The sweep of eventually over constant pieces keeps one sample per time. *)
Lemma ev_loop_flat : forall M s i z t c m z' t' c' m' i', partial_ev_loop z i s t c m = Ok (z', t', c', m', i') ->
  flat i -> sdec s t i \/ (c = false /\ match i with p :: i1 => time p <= t /\ (s < time p -> sdec s (time p) i1) | [] => True end) ->
  increasing z -> flat z -> Forall (fun q => t < time q /\ time q <= M) z -> t <= M -> (c = true -> s < t) -> (c = false -> z = []) -> s <= t ->
  increasing z' /\ flat z' /\ Forall (fun q => t' < time q /\ time q <= M) z' /\ t' <= M /\ (c' = true -> s < t') /\ (c' = false -> z' = []) /\ s <= t' /\
  (exists p r, i' = p :: r /\ time p <= s /\ deriv p = 0).
Proof.
  intros M s i. induction i as [|p i IH]; intros z t c m z' t' c' m' i' E Zi D Iz Zz Fz Tm Ct Cf St; cbn [partial_ev_loop] in E; [discriminate|].
  pose proof (Forall_inv Zi) as Dp. cbn beta in Dp.
  qtest (nltb s (time p)).
  - change n0 with 0 in E. rewrite Dp in E.
    assert (B0 : nleb 0 0 = true) by (apply nleb_true; qlra). change (Q2Qc 0) with 0 in E. rewrite B0 in E.
    assert (Tp : time p <= t /\ (c = true -> time p < t)).
    { destruct D as [[D _]|[-> [D _]]]; [split; auto; qlra|split; auto; discriminate]. }
    destruct Tp as [Tp1 Tp2].
    assert (Sp : sdec s (time p) i). { destruct D as [[_ D]|[_ [_ D]]]; auto. }
    destruct (nltb m (valueAt p t)) eqn:B; cbn [bind] in E.
    + apply Forall_inv_tail in Zi. eapply IH in E; [exact E|auto|left; auto|..]; try discriminate; try qlra; auto.
      * destruct c; auto. split; auto. eapply Forall_impl; [|exact Fz]. intros q [Hq _]. exact Hq.
      * destruct c; auto. constructor; auto.
      * destruct c; [constructor; [cbn; split; auto|]|rewrite (Cf eq_refl); constructor].
        eapply Forall_impl; [|exact Fz]. intros q [Hq Hq']. split; auto. specialize (Tp2 eq_refl). qlra.
    + apply Forall_inv_tail in Zi. eapply IH in E; [exact E|auto|left; auto|..]; try discriminate; try qlra; auto.
      eapply Forall_impl; [|exact Fz]. intros q [Hq Hq']. split; auto. qlra.
  - inversion E; subst. repeat (split; [assumption|]). exists p, i. auto.
Qed.

Lemma step_domain : forall x f, step x f -> beginTime x <= endTime x.
Proof. intros x f [I Z (p & l & E & T) En Ev]. rewrite E in En. apply Forall_inv in En. rewrite <- T. exact En. Qed.

Lemma inc_le_sdec : forall b t l, increasing l -> Forall (fun q => time q <= t) l -> forall p i, rev l = p :: i ->
  time p <= t /\ (b < time p -> sdec b (time p) i).
Proof.
  intros b t l I F p i E. assert (L : l = rev i ++ [p]) by (rewrite <- (rev_involutive l), E; reflexivity).
  rewrite L in I, F. rewrite Forall_app in F. destruct F as [_ F]. apply Forall_inv in F. split; auto.
  intros _. apply inc_app in I. destruct I as (I1 & _ & I2). rewrite <- (rev_involutive i). apply inc_sdec; auto.
  apply Forall_forall. intros q J. apply I2; cbn; auto.
Qed.

(** computeEventually on a step signal: exact at the front. *)
Lemma ev_step : forall M x f, step x f -> (forall u, beginTime x <= u -> u <= endTime x -> - M <= f u) ->
  exists z v, computeEventually M x = Ok z /\ beginTime z = beginTime x /\ endTime z = endTime x /\
    increasing (samples z) /\ flat (samples z) /\ (exists p l, samples z = p :: l /\ time p = beginTime x) /\
    Forall (fun q => time q <= endTime x) (samples z) /\
    eval (samples z) (beginTime x) = Some v /\ is_sup f (beginTime x) (endTime x) v.
Proof.
  intros M x f Sx FB. pose proof (step_domain x f Sx) as Bd. pose proof Sx as [I Z (p0 & l0 & E & T) En Ev].
  destruct (eventually_claim M x f p0 l0) as (z & E1 & B1 & B2 & O & V); auto.
  { intros t T1 T2. split; auto. apply eval_denotes. auto. }
  destruct (V (beginTime x)) as (v & V1 & V2); [qlra|qlra|]. apply eval_denotes in V1.
  exists z, v. split; [exact E1|]. split; [auto|]. split; [auto|].
  unfold compute_eventually, computePartialEventually in E1. cbn [samples empty_signal] in E1.
  destruct (partial_ev_loop _ _ _ _ _ _) as [[[[[z' t'] c'] m'] i']| | | |] eqn:EL; cbn [bind] in E1; try discriminate.
  eapply (ev_loop_flat (endTime x)) in EL; try discriminate; try qlra; auto.
  2:{ apply flat_rev; auto. }
  2:{ right. split; auto. destruct (rev (samples x)) as [|p i] eqn:Er; auto. apply (inc_le_sdec _ _ (samples x)); auto. }
  2:{ exact Logic.I. }
  2:{ constructor. }
  destruct EL as (L1 & L2 & L3 & L4 & L5 & L6 & L7 & p & r & -> & L8 & L9). cbn [deref bind] in E1.
  unfold partial_ev_last in E1. rewrite L9 in E1. change n0 with (Q2Qc 0) in E1.
  assert (B0 : nleb 0 0 = true) by (apply nleb_true; qlra). rewrite B0 in E1.
  destruct (nltb m' (valueAt p t')) eqn:B; cbn [bind] in E1; inversion E1; subst z; cbn [samples] in *.
  - destruct c'.
    + specialize (L5 eq_refl). split; [|split; [|split; [|split]]]; auto.
      * split; [constructor; [exact L5|]|split; auto]; (eapply Forall_impl; [|exact L3]); intros q [Hq _]; cbn in *; qlra.
      * constructor; [reflexivity|]. constructor; [reflexivity|exact L2].
      * eexists _, _. split; reflexivity.
      * constructor; [exact Bd|]. constructor; [exact L4|]. eapply Forall_impl; [|exact L3]. intros q [_ Hq]. exact Hq.
    + specialize (L6 eq_refl). subst z'. split; [cbn; auto|]. split; [repeat constructor|]. split; [eauto|].
      split; [apply Forall_cons; [exact Bd|apply Forall_nil]|auto].
  - split; [|split; [|split; [|split]]]; auto.
    + split; auto. eapply Forall_impl; [|exact L3]. intros q [Hq _]. cbn in *. qlra.
    + constructor; [reflexivity|exact L2].
    + eexists _, _. split; reflexivity.
    + constructor; [exact Bd|]. eapply Forall_impl; [|exact L3]. intros q [_ Hq]. exact Hq.
Qed.

Lemma is_sup_of : forall f lo hi v, (exists s, lo <= s /\ s <= hi /\ f s = v) -> (forall s, lo <= s -> s <= hi -> f s <= v) -> is_sup f lo hi v.
Proof. intros f lo hi v (s & S1 & S2 & S3) H. split; auto. intros w W. rewrite <- S3. auto. Qed.

(** What a timed operator leaves: a step signal over [[s,e]]. *)
Lemma timed_ev_step : forall M self f x a b s e, step x f -> 0 <= a -> a <= b -> s <= e ->
  beginTime x = s + a -> endTime x = e + b -> (forall u, beginTime x <= u -> u <= endTime x -> - M <= f u) ->
  exists z0 z g, compute_timed_eventually M self x a b = Ok z0 /\ endTime z0 = e + b - a /\
    resize z0 s e n0 = Ok z /\ step z g /\ beginTime z = s /\ endTime z = e /\
    forall u, s <= u -> u <= e -> is_sup f (u + a) (u + b) (g u).
Proof.
  intros M self f x a b s e Sx Ha Hab Hse Bx Ex FB.
  assert (K : forall z0, increasing (samples z0) -> flat (samples z0) -> (exists p l, samples z0 = p :: l /\ time p = s) ->
    beginTime z0 = s -> e <= endTime z0 -> forall g, (forall u, s <= u -> u <= e -> eval (samples z0) u = Some (g u)) ->
    exists z, resize z0 s e n0 = Ok z /\ step z g /\ beginTime z = s /\ endTime z = e).
  { intros z0 I Z (p & l & E & T) B1 B2 g V.
    destruct (resize_step z0 s e n0 p l) as (z & R1 & R2 & R3 & R4 & R5 & R6 & R7 & R8 & _); auto; try qlra.
    exists z. split; [auto|]. split; [|auto]. constructor; auto.
    - rewrite R2. auto.
    - rewrite R3. auto.
    - intros u U1 U2. rewrite R2 in U1. rewrite R3 in U2. rewrite R8 by auto. auto. }
  unfold compute_timed_eventually.
  assert (Y : exists y, (if nltb n0 a then shift x (nopp a) else x) = y /\ step y (fun u => f (u + a)) /\ beginTime y = s /\ endTime y = e + b - a).
  { eexists. split; [reflexivity|]. destruct (nltb n0 a) eqn:B.
    - split; [|cbn [shift beginTime endTime]; unfold nadd, nopp; cbn [NumQc]; rewrite Bx, Ex; split; ring].
      pose proof (step_shift x f (nopp a) Sx) as [I Z F En Ev]. constructor; auto. intros u U1 U2. rewrite Ev by auto. f_equal. f_equal.
      unfold nopp; cbn [NumQc]. ring.
    - qb. assert (A0 : a = 0) by (change n0 with 0 in B; qlra). subst a. split; [|split; [rewrite Bx; ring|rewrite Ex; ring]].
      destruct Sx as [I Z F En Ev]. constructor; auto. intros u U1 U2. rewrite Ev by auto. f_equal. f_equal. ring. }
  destruct Y as (y & -> & Sy & By & Ey).
  destruct (samples x) as [|p0 l0] eqn:Es. { destruct Sx as [_ _ (p & l & K' & _) _ _]. congruence. }
  clear p0 l0 Es.
  assert (FBy : forall u, beginTime y <= u -> u <= endTime y -> - M <= f (u + a)).
  { intros u U1 U2. apply FB; qlra. }
  change (nsub b a) with (b - a). change n0 with 0 in *. qtest (nleb (b - a) 0).
  - assert (Eab : b = a) by qlra. subst b. pose proof Sy as [I Z F En Ev]. rewrite By in F.
    destruct (K y I Z F By ltac:(qlra) (fun u => f (u + a))) as (z & Z1 & Z2 & Z3 & Z4).
    { intros u U1 U2. apply Ev; qlra. }
    exists y, z, (fun u => f (u + a)). split; [auto|]. split; [auto|]. split; [auto|]. split; [auto|]. split; [auto|]. split; [auto|].
    intros u U1 U2. apply is_sup_point.
  - change (nsub (endTime y) (beginTime y)) with (endTime y - beginTime y). qtest (nleb (endTime y - beginTime y) (b - a)).
    + assert (Ees : e = s) by qlra. subst e.
      destruct (ev_step M y _ Sy FBy) as (z0 & v & C1 & C2 & C3 & C4 & C5 & C6 & C7 & C8 & C9). rewrite By in *.
      destruct (K z0 C4 C5 C6 C2 ltac:(qlra) (fun _ => v)) as (z & Z1 & Z2 & Z3 & Z4).
      { intros u U1 U2. replace u with s by qlra. auto. }
      exists z0, z, (fun _ => v). split; [auto|]. split; [congruence|]. split; [auto|]. split; [auto|]. split; [auto|]. split; [auto|].
      intros u U1 U2. assert (u = s) by qlra. subst u. apply (is_sup_shift f a) in C9. rewrite Ey in C9.
      replace (s + b - a + a) with (s + b) in C9 by ring. auto.
    + destruct (bounded_step M (b - a) (fun u => f (u + a)) y Sy) as (z0 & g & C1 & [H1 H2 H3 H4 H5 H6 H7] & C2); auto; try qlra.
      rewrite By, Ey in *.
      destruct (K z0 H3 H4 H5 H1 ltac:(qlra) g) as (z & Z1 & Z2 & Z3 & Z4).
      { intros u U1 U2. apply H7; qlra. }
      exists z0, z, g. split; [auto|]. split; [auto|]. split; [auto|]. split; [auto|]. split; [auto|]. split; [auto|].
      intros u U1 U2. destruct (C2 u U1 ltac:(qlra)) as [(t & T1 & T2 & T3) C3].
      apply is_sup_of.
      * exists (t + a). split; [qlra|]. split; [qlra|auto].
      * intros t' S1 S2. specialize (C3 (t' - a) ltac:(qlra) ltac:(qlra)). replace (t' - a + a) with t' in C3 by ring. auto.
Qed.

Lemma timed_alw_step : forall M self f x a b s e, step x f -> 0 <= a -> a <= b -> s <= e ->
  beginTime x = s + a -> endTime x = e + b -> (forall u, beginTime x <= u -> u <= endTime x -> f u <= M) ->
  exists z0 z g, compute_timed_globally M self x a b = Ok z0 /\ endTime z0 = e + b - a /\
    resize z0 s e n0 = Ok z /\ step z g /\ beginTime z = s /\ endTime z = e /\
    forall u, s <= u -> u <= e -> is_inf f (u + a) (u + b) (g u).
Proof.
  intros M self f x a b s e Sx Ha Hab Hse Bx Ex FB. rewrite timed_globally_dual.
  destruct (timed_ev_step M (cnot self) (fun u => - f u) (cnot x) a b s e) as (z0 & z & g & H1 & H2 & H3 & H4 & H5 & H6 & H7); auto.
  { apply step_neg; auto. }
  { intros u U1 U2. specialize (FB u U1 U2). qlra. }
  exists (cnot z0), (cnot z), (fun u => - g u). rewrite H1. split; [reflexivity|]. split; [exact H2|]. split.
  - change n0 with (Q2Qc 0) in *. replace (Q2Qc 0) with (- 0) by ring. rewrite resize_neg. change (Q2Qc 0) with 0 in H3. rewrite H3. reflexivity.
  - split; [apply step_neg; auto|]. split; [exact H5|]. split; [exact H6|]. intros u U1 U2. apply is_sup_neg. auto.
Qed.
