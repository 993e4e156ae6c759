(** Timed until on signals of closed pieces. *)
From Coq Require Import List QArith Qcanon Bool Lia.
From Verif Require Import Num Base Signal QcTac Spec Robust Repr AndProof NegProof SimplifyProof Lip BoolOps Closed SigProof ResizeProof NegTimed EvProof PlateauProof BoundedProof TimedProof UntilProof.
Import ListNotations.
Local Open Scope Qc_scope.

(** ** The window of until from its parts *)
Lemma is_inf_unique : forall f lo hi v w, is_inf f lo hi v -> is_inf f lo hi w -> v = w.
Proof. intros f lo hi v w [A1 A2] [B1 B2]. apply Qcle_antisym; [apply B2|apply A2]; auto. Qed.

(** Within a window only the right operand has to be looked at. *)
Lemma until_window : forall yf h s c e ey Y U, 0 <= c -> s <= e -> e <= ey ->
  (forall u u', s <= u -> u <= u' -> u' <= e -> h u' <= h u) ->
  is_sup yf s (qmin (s + c) ey) Y -> is_sup (fun u => qmin (yf u) (h u)) s e U ->
  is_sup (fun u => qmin (yf u) (h u)) s (qmin (s + c) e) (qmin Y U).
Proof.
  intros yf h s c e ey Y U C Se Ee Hh [Y1 Y2] [U1 U2]. split.
  - intros u H1 H2. apply (le_min) in H2. destruct H2 as [H2 H3]. apply le_min. split; [|apply U1; auto].
    apply min_le. left. apply Y1; auto. apply le_min. split; qlra.
  - intros w W. apply min_le. destruct (Qclt_le_dec w Y) as [LY|LY]; [|auto]. right. apply U2. intros u H1 H2.
    destruct (Qclt_le_dec (s + c) u) as [Lu|Lu]; [|apply W; auto; apply le_min; auto].
    destruct (Qclt_le_dec w (qmin (yf u) (h u))) as [L|L]; [|auto]. exfalso.
    assert (Y <= w); [|qlra]. apply Y2. intros r R1 R2. apply le_min in R2. destruct R2 as [R2 R3].
    specialize (W r R1). assert (Hr : r <= qmin (s + c) e) by (apply le_min; split; qlra). specialize (W Hr).
    apply min_le in W. destruct W as [W|W]; auto. exfalso.
    specialize (Hh r u ltac:(qlra) ltac:(qlra) H2). destruct (qmin_cases (yf u) (h u)) as [[E ?]|[E ?]]; rewrite E in L; qlra.
Qed.

Lemma window_left : forall yf h g s m K, is_sup (fun u => qmin (yf u) (h u)) s m K ->
  is_sup (fun u => qmin (yf u) (qmin g (h u))) s m (qmin g K).
Proof.
  intros yf h g s m K [K1 K2]. split.
  - intros u U1 U2. specialize (K1 u U1 U2). apply le_min. split.
    + apply min_le. right. apply min_le. left. qlra.
    + apply min_le in K1. apply min_le. destruct K1 as [K1|K1]; [auto|]. right. apply min_le. auto.
  - intros w W. apply min_le. destruct (Qclt_le_dec w g) as [L|L]; [|auto]. right. apply K2. intros u U1 U2.
    specialize (W u U1 U2). apply min_le in W. apply min_le. destruct W as [W|W]; [auto|]. apply min_le in W. destruct W; auto. exfalso; qlra.
Qed.

Definition windowQ (xf yf : Qc -> Qc) (a b e : Qc) (t v : Qc) : Prop :=
  exists h, (forall u, t <= u -> u <= e -> is_inf xf t u (h u)) /\
            is_sup (fun u => qmin (yf u) (h u)) (t + a) (qmin (t + b) e) v.

Section Parts.
Variables (xf yf : Qc -> Qc) (lo e : Qc) (I : Qc -> Qc -> Qc).
Hypothesis HI : forall u t, lo <= u -> u <= t -> t <= e -> is_inf xf u t (I u t).

Lemma inf_anti : forall u t t', lo <= u -> u <= t -> t <= t' -> t' <= e -> I u t' <= I u t.
Proof.
  intros u t t' H1 H2 H3 H4. destruct (HI u t) as [_ A]; try qlra. destruct (HI u t') as [B _]; try qlra.
  apply A. intros r R1 R2. apply B; qlra.
Qed.

Lemma window_parts : forall t a d g K, lo <= t -> 0 <= a -> t + a <= e -> is_inf xf t (t + a) g ->
  is_sup (fun u => qmin (yf u) (I (t + a) u)) (t + a) (qmin (t + d) e) K -> windowQ xf yf a d e t (qmin g K).
Proof.
  intros t a d g K T A E G H. exists (I t). split; [intros; apply HI; auto|].
  apply (window_left _ _ g) in H. eapply is_sup_ext; [|exact H]. intros u U1 U2. cbn beta. f_equal.
  apply le_min in U2. destruct U2 as [U2 U3].
  rewrite (is_inf_unique _ _ _ _ _ G (HI t (t + a) ltac:(qlra) ltac:(qlra) E)). symmetry.
  apply (inf_split xf lo e I HI); try qlra.
Qed.

Lemma untilQ_I : forall s v, lo <= s -> untilQ xf yf e s v -> is_sup (fun u => qmin (yf u) (I s u)) s e v.
Proof.
  intros s v L (h & H1 & H2). eapply is_sup_ext; [|exact H2]. intros u U1 U2. cbn beta. f_equal.
  eapply is_inf_unique; [apply H1; auto|apply HI; auto].
Qed.
End Parts.

(** ** computeBoundedGlobally *)
Lemma bounded_alw : forall (full : Prop) M xf x a, crep xf x -> 0 < a -> a <= endTime x - beginTime x ->
  (forall u, beginTime x <= u -> u <= endTime x -> xf u <= M) -> (full -> late xf x (beginTime x + a)) ->
  exists z, computeBoundedGlobally M x a = Ok z /\
    qres z (beginTime x) (endTime x) (fun u v => full \/ u = beginTime x -> is_inf xf u (qmin (u + a) (endTime x)) v).
Proof.
  intros full M xf x a R A1 A2 B L.
  assert (H : computeBoundedGlobally M x a = rmap cnot (computeBoundedEventually M (cnot x) a)).
  { rewrite <- boundedGlobally_neg, cnot_cnot. reflexivity. }
  rewrite H. clear H.
  destruct (bounded_ev full M (fun u => - xf u) (cnot x) a) as (z & E & Q).
  - apply crep_neg_fn. auto.
  - auto.
  - cbn [compute_not beginTime endTime]. qlra.
  - intros u U1 U2. specialize (B u U1 U2). qlra.
  - intros H. destruct (L H) as [(q & J & T)|K].
    + left. exists (neg q). split; [cbn [compute_not samples]; apply in_map; auto|exact T].
    + right. intros u U1 U2. cbn [compute_not beginTime endTime] in *. rewrite (K u) by auto. reflexivity.
  - rewrite E. exists (cnot z). split; [reflexivity|]. eapply qres_neg; [exact Q|].
    intros u v U1 U2 H. unfold Qneg. cbn beta in *. intros K. specialize (H K). apply is_sup_neg in H. auto.
Qed.

Lemma crep_crepQ : forall z b e Q, qres z b e Q -> crepQ Q z.
Proof. intros z b e Q H. apply H. Qed.

Lemma proj1_not_nil : forall Q s, crepQ Q s -> exists p l, samples s = p :: l.
Proof. intros Q s [N _]. destruct (samples s); [congruence|eauto]. Qed.

Lemma std_min : forall u v : Qc, smin u v = qmin u v.
Proof.
  intros u v. unfold smin. destruct (qmin_cases u v) as [[-> ?]|[-> ?]]; qcase; auto; try (apply Qcle_antisym; auto); qlra.
Qed.

Section Timed.
Variables (fx fy : Prop) (M : Qc) (self : signal Qc) (xf yf : Qc -> Qc) (x y : signal Qc) (a d : Qc).
Let b := qmax (beginTime x) (beginTime y).
Let e := qmin (endTime x) (endTime y).
Hypothesis Rx : crep xf x.
Hypothesis Ry : crep yf y.
Hypothesis Ix : increasing (samples x).
Hypothesis Iy : increasing (samples y).
Hypothesis XB : forall u, beginTime x <= u -> u <= endTime x -> - M <= xf u /\ xf u <= M.
Hypothesis YB : forall u, beginTime y <= u -> u <= endTime y -> - M <= yf u.
Hypothesis St : in_step x y.
Hypothesis A0 : 0 <= a.
Hypothesis Ad : a < d.
Let lo := qmax (beginTime x) (b - a).
Hypothesis Len : b < e.
Hypothesis Len' : lo < e - a.
Hypothesis Lx : 0 < a -> fx -> late xf x (beginTime x + a).
(** The times at which the result is exact. *)
Let okx (t : Qc) : Prop := 0 < a -> fx \/ t = beginTime x.
Let oky (t : Qc) : Prop := fy \/ t + a = beginTime y.
Let I := lowest xf (samples x).

Lemma dom_le : beginTime x <= b /\ beginTime y <= b /\ e <= endTime x /\ e <= endTime y /\
  lo <= b /\ beginTime x <= lo /\ b - a <= lo.
Proof.
  unfold lo. assert (H : beginTime x <= b /\ beginTime y <= b) by (unfold b; destruct (qmax_cases (beginTime x) (beginTime y)) as [[-> ?]|[-> ?]]; split; qlra).
  assert (H' : e <= endTime x /\ e <= endTime y) by (unfold e; destruct (qmin_cases (endTime x) (endTime y)) as [[-> ?]|[-> ?]]; split; qlra).
  destruct H, H'. destruct (qmax_cases (beginTime x) (b - a)) as [[-> ?]|[-> ?]]; repeat split; qlra.
Qed.

Lemma I_inf : forall u t, beginTime x <= u -> u <= t -> t <= e -> is_inf xf u t (I u t).
Proof.
  intros u t U1 U2 U3. destruct dom_le as (_ & _ & H & _). destruct Rx as [_ P]. apply (lowest_inf _ _ _ _ P); qlra.
Qed.

Lemma until_part : exists z, computeUntil M x y = Ok z /\ qres z b e (untilQ xf yf e).
Proof.
  destruct dom_le as (H1 & H2 & H3 & H4 & _).
  apply computeUntil_q; auto; fold b e.
  - intros u U1 U2. apply XB; qlra.
  - intros u U1 U2. apply YB; qlra.
Qed.

(** The left operand up to the window, and what was computed for the window. *)
Lemma join_left : forall (ky : Qc -> Prop) z K, qres z b e K ->
  (forall t v, lo <= t -> t <= e - a -> ky t -> K (t + a) v -> is_sup (fun u => qmin (yf u) (I (t + a) u)) (t + a) (qmin (t + d) e) v) ->
  0 < a -> exists z1 z', computeBoundedGlobally M x a = Ok z1 /\ computeAnd z1 (shift z (- a)) = Ok z' /\
    qres z' lo (e - a) (fun t v => okx t -> ky t -> windowQ xf yf a d e t v).
Proof.
  intros ky z K Q H A. destruct dom_le as (H1 & H2 & H3 & H4 & H5 & H6 & H7).
  destruct (bounded_alw fx M xf x a) as (z1 & E1 & Q1); auto.
  { qlra. }
  { intros u U1 U2. apply XB; auto. }
  exists z1. pose proof (crepQ_shift _ _ (- a) (qr_rep _ _ _ _ Q)) as Rs.
  assert (Bs : beginTime (shift z (- a)) = b - a) by (unfold shift; cbn [beginTime]; rewrite (qr_begin _ _ _ _ Q); reflexivity).
  assert (Es : endTime (shift z (- a)) = e - a) by (unfold shift; cbn [endTime]; rewrite (qr_end _ _ _ _ Q); reflexivity).
  assert (Bq : qmax (beginTime z1) (beginTime (shift z (- a))) = lo) by (rewrite Bs, (qr_begin _ _ _ _ Q1); reflexivity).
  assert (Eq : qmin (endTime z1) (endTime (shift z (- a))) = e - a) by (rewrite Es, (qr_end _ _ _ _ Q1); apply qmin_r; qlra).
  destruct (computeAnd_q z1 (shift z (- a)) _ _ (fun t v => okx t -> ky t -> windowQ xf yf a d e t v) (qr_rep _ _ _ _ Q1) Rs) as (z' & E & R).
  - rewrite Bq, Eq. qlra.
  - intros u v w. rewrite Bq, Eq. intros U1 U2 V W OX KY. cbn beta in W. replace (u - - a) with (u + a) in W by ring.
    specialize (V (OX A)). rewrite qmin_l in V by qlra.
    apply (window_parts xf yf (beginTime x) e I I_inf); auto; try qlra.
  - rewrite Bq, Eq. qlra.
  - exists z'. rewrite Bq, Eq in R. auto.
Qed.

(** The window fits in the data: the branch through computeTimedUntil. *)
Lemma timed_until_short : d - a <= endTime y - beginTime y -> (fy -> late yf y (beginTime y + (d - a))) ->
  exists z, computeTimedUntil M x y a d = Ok z /\ qres z lo (e - a) (fun t v => okx t -> oky t -> windowQ xf yf a d e t v).
Proof.
  intros Ly Lw. destruct dom_le as (H1 & H2 & H3 & H4 & H5 & H6 & H7).
  unfold computeTimedUntil. change (nsub d a) with (d - a). change (nopp a) with (- a). change n0 with 0.
  destruct (bounded_ev fy M yf y (d - a)) as (z2 & E2 & Q2); auto; try qlra.
  rewrite E2. cbn [bind]. destruct until_part as (z3 & E3 & Q3). rewrite E3. cbn [bind].
  assert (Bq : qmax (beginTime z2) (beginTime z3) = b) by (rewrite (qr_begin _ _ _ _ Q2), (qr_begin _ _ _ _ Q3); apply qmax_r; auto).
  assert (Eq : qmin (endTime z2) (endTime z3) = e) by (rewrite (qr_end _ _ _ _ Q2), (qr_end _ _ _ _ Q3); apply qmin_r; auto).
  pose (K := fun s v => fy \/ s = beginTime y -> is_sup (fun u => qmin (yf u) (I s u)) s (qmin (s + (d - a)) e) v).
  destruct (computeAnd_q z2 z3 _ _ K (qr_rep _ _ _ _ Q2) (qr_rep _ _ _ _ Q3)) as (z4 & E4 & Q4).
  - rewrite Bq, Eq. qlra.
  - intros u v w. rewrite Bq, Eq. intros U1 U2 V W. unfold K. intros OY. eapply until_window; [| | | |exact (V OY)|]; try qlra.
    + intros r r' R1 R2 R3. apply (inf_anti xf (beginTime x) e I I_inf); qlra.
    + apply (untilQ_I xf yf (beginTime x) e I I_inf); auto. qlra.
  - rewrite Bq, Eq. qlra.
  - rewrite Bq, Eq in Q4. rewrite E4. cbn [bind].
    qtest (nltb 0 a).
    + destruct (join_left oky z4 K Q4) as (z1 & z' & E1 & E5 & R); auto.
      * intros t v T1 T2 OY V. unfold K in V. replace (t + a + (d - a)) with (t + d) in V by ring. auto.
      * rewrite E1. cbn [bind]. eauto.
    + assert (a = 0) by qlra.
      assert (Bq' : qmax (beginTime x) (beginTime z4) = b) by (rewrite (qr_begin _ _ _ _ Q4); apply qmax_r; auto).
      assert (Eq' : qmin (endTime x) (endTime z4) = e) by (rewrite (qr_end _ _ _ _ Q4); apply qmin_r; auto).
      destruct (computeAnd_q x z4 _ _ (fun t v => okx t -> oky t -> windowQ xf yf a d e t v) Rx (qr_rep _ _ _ _ Q4)) as (z' & E & R).
      * rewrite Bq', Eq'. qlra.
      * intros u v w. rewrite Bq', Eq'. intros U1 U2 <- W OX OY. apply (window_parts xf yf (beginTime x) e I I_inf); auto; try qlra.
        -- replace (u + a) with u by (rewrite H; ring). split; [intros r R1 R2; replace r with u by qlra; qlra|intros r R; apply R; qlra].
        -- unfold K in W. unfold oky in OY. replace (u + a) with u in OY by (rewrite H; ring). specialize (W OY). replace (u + (d - a)) with (u + d) in W by (rewrite H; ring). replace (u + a) with u by (rewrite H; ring). auto.
      * rewrite Bq', Eq'. qlra.
      * rewrite Bq', Eq' in R. exists z'. split; auto.
        replace lo with b by (unfold lo; rewrite H; symmetry; replace (b - 0) with b by ring; apply qmax_r; auto).
        replace (e - a) with e by (rewrite H; ring). auto.
Qed.

(** The window reaches the end of the data everywhere. *)
Lemma untilQ_window : forall t v, lo <= t -> t <= e - a -> e <= t + d -> untilQ xf yf e (t + a) v ->
  is_sup (fun u => qmin (yf u) (I (t + a) u)) (t + a) (qmin (t + d) e) v.
Proof.
  intros t v T1 T2 T3 U. destruct dom_le as (H1 & H2 & H3 & H4 & H5 & H6 & H7). rewrite qmin_r by auto.
  apply (untilQ_I xf yf (beginTime x) e I I_inf); auto. qlra.
Qed.

Lemma timed_until_q : a <= endTime x ->
  (d <= e -> d - a <= endTime y - beginTime y /\ (fy -> late yf y (beginTime y + (d - a)))) ->
  (e < d -> e <= lo + d) ->
  exists z, compute_timed_until M self x y a d = Ok z /\ qres z lo (e - a) (fun t v => okx t -> oky t -> windowQ xf yf a d e t v).
Proof.
  intros Ax Sh Lg. destruct dom_le as (H1 & H2 & H3 & H4 & H5 & H6 & H7).
  destruct (proj1_not_nil _ _ Rx) as (sx & lx & Ex). destruct (proj1_not_nil _ _ Ry) as (sy & ly & Ey).
  unfold compute_timed_until. rewrite Ex, Ey.
  change (nopp a) with (- a). change n0 with 0.
  replace (smin (endTime x) (endTime y)) with e by (unfold e; symmetry; apply std_min).
  qtest (nltb e d).
  - specialize (Lg Eb). destruct until_part as (z3 & E3 & Q3). qtest (neqb a 0).
    + rewrite E3. exists z3. split; [auto|].
      replace lo with b in * by (unfold lo; rewrite Eb0; symmetry; replace (b - 0) with b by ring; apply qmax_r; auto).
      replace (e - a) with e by (rewrite Eb0; ring). eapply qres_impl; [exact Q3|]. intros u v U1 U2 (h & V1 & V2) _ _.
      exists h. split; [auto|]. rewrite Eb0, Qcplus_0_r, qmin_r by qlra. auto.
    + qtest (nltb (endTime x) a); [exfalso; qlra|].
      assert (Ap : 0 < a) by (destruct (Qcle_lt_or_eq _ _ A0); [auto|congruence]).
      destruct (join_left oky z3 _ Q3) as (z1 & z' & E1 & E5 & R); auto.
      * intros t v T1 T2 _ V. apply untilQ_window; auto; qlra.
      * rewrite E1. cbn [bind]. rewrite E3. cbn [bind]. eauto.
  - destruct Sh; auto. apply timed_until_short; auto.
Qed.
End Timed.
