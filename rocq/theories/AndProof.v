(** Correctness of the backward sweep of robustness.cpp:934-1037 (and its dual
    1045-1158). *)
From Coq Require Import List QArith Qcanon Bool Lia.
From Verif Require Import Num Base Signal QcTac Spec Robust Repr.
Import ListNotations.
Local Open Scope Qc_scope.

Lemma qmin_l : forall a b : Qc, a <= b -> qmin a b = a.
Proof. intros a b H. unfold qmin. destruct (Qclt_le_dec b a); auto. exfalso. qlra. Qed.
Lemma qmin_r : forall a b : Qc, b <= a -> qmin a b = b.
Proof. intros a b H. unfold qmin. destruct (Qclt_le_dec b a); auto. qlra. Qed.
Lemma qmax_l : forall a b : Qc, b <= a -> qmax a b = a.
Proof. intros a b H. unfold qmax. destruct (Qclt_le_dec a b); auto. exfalso. qlra. Qed.
Lemma qmax_r : forall a b : Qc, a <= b -> qmax a b = b.
Proof. intros a b H. unfold qmax. destruct (Qclt_le_dec a b); auto. qlra. Qed.

Lemma line_at : forall p : smp, line p (time p) = value p.
Proof. intros p. unfold line. ring. Qed.

Lemma line_cut : forall (p : smp) t u, line (mkS t (line p t) (deriv p)) u = line p u.
Proof. intros p t u. unfold line. cbn [time value deriv]. ring. Qed.

Lemma line_same : forall (p : smp) u, line (mkS (time p) (value p) (deriv p)) u = line p u.
Proof. reflexivity. Qed.

Section And.
Variables (cl : bool) (Q : Qc -> Qc -> Prop) (b e : Qc).

(** Samples lie before the end, except possibly the one at the beginning. *)
Definition lim (z : list smp) : Prop := Forall (fun q => time q < e \/ time q = b) z.

Definition arep (z : list smp) (t : Qc) : Prop := prepQ cl Q e z t /\ lim z.

Lemma arep_push : forall z s t p, arep z t -> time p = s -> s <= t -> s < e \/ s = b ->
  (forall u, s <= u -> rlt cl u t -> Q u (line p u)) -> arep (p :: z) s.
Proof.
  intros z s t p [R L] H1 H2 H3 H4. split; [eapply prep_cons; eauto|].
  constructor; auto. rewrite H1. auto.
Qed.

Definition ainv (i : smp) (z : list smp) (t : Qc) (c : bool) : Prop :=
  if c then t < e /\ exists t1, t <= t1 /\ t1 <= e /\ arep z t1 /\
                       (forall u, t <= u -> rlt cl u t1 -> Q u (line i u))
  else t <= e /\ arep z t.

Lemma ainv_weak : forall i z t c, ainv i z t c ->
  exists t1, t <= t1 /\ t1 <= e /\ arep z t1 /\
    (forall u, rlt cl u t1 -> rlt cl u t \/ Q u (line i u)).
Proof.
  intros i z t [|] H.
  - destruct H as (H0 & t1 & H1 & H2 & H3 & H4). exists t1. split; [auto|]. split; [auto|]. split; [auto|].
    intros u U. destruct (Qclt_le_dec u t); [left; qr|right; auto].
  - destruct H as [H1 H2]. exists t. split; [qlra|]. split; [auto|]. split; [auto|]. auto.
Qed.

Lemma ainv_push : forall i z t c, ainv i z t c ->
  arep (if c then mkS t (line i t) (deriv i) :: z else z) t.
Proof.
  intros i z t [|] H; [|apply H]. destruct H as (H0 & t1 & H1 & H2 & H3 & H4).
  eapply arep_push; eauto. intros u U1 U2. rewrite line_cut. auto.
Qed.

Lemma ainv_le : forall i z t c, ainv i z t c -> t <= e.
Proof. intros i z t [|] H; [destruct H; qlra | apply H]. Qed.

Lemma seg_and_body_ok : forall i z t c j,
  time j <= t -> time j < e -> ainv i z t c ->
  (forall u, time j <= u -> rlt cl u t -> Q u (qmin (line i u) (line j u))) ->
  exists z' c', seg_and_body i z t c j = Ok (z', c') /\ ainv i z' (time j) c'.
Proof.
  intros i z t c j Hj Hje Inv Hf. unfold seg_and_body. cbv zeta.
  vline. rewrite <- (line_at j).
  pose proof (ainv_le _ _ _ _ Inv) as Hte.
  set (s := time j) in *.
  qcase; [qcase|qtest (neqb (line i t) (line j t)); qcase].
  - destruct (crossing i j s t) as (t' & E1 & E2 & E3 & E4 & E5 & E6); auto.
    rewrite E1. cbn [bind]. eexists _, _; split; [reflexivity|]. cbn [ainv]. split; [qlra|].
    vline.
    destruct (ainv_weak _ _ _ _ Inv) as (t1 & I1 & I2 & I3 & I4).
    eapply arep_push with (t := t'); [|reflexivity|qlra|auto|].
    + eapply arep_push with (t := t1); [exact I3|reflexivity|qlra|left; qlra|].
      intros u U1 U2. rewrite line_cut.
      destruct (I4 u U2) as [C|C].
      * rewrite <- (qmin_l (line i u) (line j u)); [apply Hf; qr|]. apply E6; qr.
      * exact C.
    + intros u U1 U2. rewrite line_cut. rewrite <- (qmin_r (line i u) (line j u)); [apply Hf; qr|]. apply E5; qr.
  - eexists _, _; split; [reflexivity|]. cbn [ainv]. split; [auto|].
    destruct (ainv_weak _ _ _ _ Inv) as (t1 & I1 & I2 & I3 & I4).
    exists t1. split; [qlra|]. split; [auto|]. split; [auto|].
    intros u U1 U2. destruct (I4 u U2) as [C|C].
    + rewrite <- (qmin_l (line i u) (line j u)); [apply Hf; qr|]. apply (line_between i j s u t); auto; qr.
    + exact C.
  - eexists _, _; split; [reflexivity|]. cbn [ainv]. split; [qlra|].
    eapply arep_push with (t := t); [apply ainv_push; exact Inv|reflexivity|qlra|auto|].
    intros u U1 U2. rewrite line_cut. rewrite <- (qmin_r (line i u) (line j u)); [apply Hf; qr|].
    apply (line_between j i s u t); auto; qr.
  - eexists _, _; split; [reflexivity|]. cbn [ainv]. split; [auto|].
    destruct (ainv_weak _ _ _ _ Inv) as (t1 & I1 & I2 & I3 & I4).
    exists t1. split; [qlra|]. split; [auto|]. split; [auto|].
    intros u U1 U2. destruct (I4 u U2) as [C|C].
    + rewrite <- (qmin_l (line i u) (line j u)); [apply Hf; qr|]. apply (line_between i j s u t); auto; qr.
    + exact C.
  - assert (K : line j t < line i t).
    { destruct (Qc_neq_lt _ _ Eb0); auto. exfalso. qlra. }
    destruct (crossing2 i j s t) as (t' & E1 & E2 & E3 & E4 & E5 & E6); auto.
    rewrite E1. cbn [bind]. eexists _, _; split; [reflexivity|]. cbn [ainv]. split; [auto|].
    exists t'. split; [qlra|]. split; [qlra|]. vline. split.
    + eapply arep_push with (t := t); [apply ainv_push; exact Inv|reflexivity|qlra|left; qlra|].
      intros u U1 U2. rewrite line_cut. rewrite <- (qmin_r (line i u) (line j u)); [apply Hf; qr|]. apply E6; qr.
    + intros u U1 U2. rewrite <- (qmin_l (line i u) (line j u)); [apply Hf; qr|]. apply E5; qr.
  - assert (K : line j t < line i t).
    { destruct (Qc_neq_lt _ _ Eb0); auto. exfalso. qlra. }
    eexists _, _; split; [reflexivity|]. cbn [ainv]. split; [qlra|].
    eapply arep_push with (t := t); [apply ainv_push; exact Inv|reflexivity|qlra|auto|].
    intros u U1 U2. rewrite line_cut. rewrite <- (qmin_r (line i u) (line j u)); [apply Hf; qr|].
    apply (line_between j i s u t); auto; qr.
Qed.

Definition hd_lt (j : list smp) : Prop := forall p j', j = p :: j' -> time p < e \/ time p <= b.

Lemma seg_and_last_ok : forall i z t c j,
  time i <= t -> time j <= time i -> time i < e \/ time i = b -> ainv i z t c ->
  (forall u, time i <= u -> rlt cl u t -> Q u (qmin (line i u) (line j u))) ->
  exists p z', seg_and_last i z t c j = Ok (p :: z') /\ time p = time i /\
    arep (p :: z') (time i) /\
    ((time i < t \/ z = [] /\ c = false) -> Forall (fun q => time i < time q) z').
Proof.
  intros i z t c j Ht Hj Hie Inv Hf. unfold seg_and_last. cbv zeta.
  vline. rewrite <- (line_at i).
  pose proof (ainv_le _ _ _ _ Inv) as Hte.
  assert (Hz : (time i < t \/ z = [] /\ c = false) -> Forall (fun q => time i < time q) z /\
               Forall (fun q => time i < time q) (if c then mkS t (line i t) (deriv i) :: z else z)).
  { intros Hs. destruct Hs as [Hs|[-> ->]]; [|split; auto].
    assert (F : Forall (fun q => time i < time q) z).
    { destruct (ainv_weak _ _ _ _ Inv) as (t1 & I1 & I2 & I3 & I4).
      eapply Forall_lt_le; [eapply prepQ_times; apply I3|qlra]. }
    split; auto. destruct c; auto. }
  assert (Hz1 := fun H => proj1 (Hz H)). assert (Hz2 := fun H => proj2 (Hz H)). clear Hz.
  set (s := time i) in *.
  qcase; [qcase|qtest (neqb (line i t) (line j t)); qcase].
  - destruct (crossing i j s t) as (t' & E1 & E2 & E3 & E4 & E5 & E6); auto.
    rewrite E1. cbn [bind]. eexists _, _; split; [reflexivity|]. split; [reflexivity|].
    vline.
    destruct (ainv_weak _ _ _ _ Inv) as (t1 & I1 & I2 & I3 & I4). split; [|intros Hs; constructor; auto].
    eapply arep_push with (t := t'); [|reflexivity|qlra|auto|].
    + eapply arep_push with (t := t1); [exact I3|reflexivity|qlra|left; qlra|].
      intros u U1 U2. rewrite line_cut.
      destruct (I4 u U2) as [C|C].
      * rewrite <- (qmin_l (line i u) (line j u)); [apply Hf; qr|]. apply E6; qr.
      * exact C.
    + intros u U1 U2. rewrite line_cut. rewrite <- (qmin_r (line i u) (line j u)); [apply Hf; qr|]. apply E5; qr.
  - eexists _, _; split; [reflexivity|]. split; [reflexivity|]. split; auto.
    destruct (ainv_weak _ _ _ _ Inv) as (t1 & I1 & I2 & I3 & I4).
    eapply arep_push with (t := t1); [exact I3|reflexivity|qlra|auto|].
    intros u U1 U2. destruct (I4 u U2) as [C|C].
    + rewrite <- (qmin_l (line i u) (line j u)); [apply Hf; qr|]. apply (line_between i j s u t); auto; qr.
    + exact C.
  - eexists _, _; split; [reflexivity|]. split; [reflexivity|]. split; auto.
    eapply arep_push with (t := t); [apply ainv_push; exact Inv|reflexivity|qlra|auto|].
    intros u U1 U2. rewrite line_cut. rewrite <- (qmin_r (line i u) (line j u)); [apply Hf; qr|].
    apply (line_between j i s u t); auto; qr.
  - eexists _, _; split; [reflexivity|]. split; [reflexivity|]. split; auto.
    destruct (ainv_weak _ _ _ _ Inv) as (t1 & I1 & I2 & I3 & I4).
    eapply arep_push with (t := t1); [exact I3|reflexivity|qlra|auto|].
    intros u U1 U2. destruct (I4 u U2) as [C|C].
    + rewrite <- (qmin_l (line i u) (line j u)); [apply Hf; qr|]. apply (line_between i j s u t); auto; qr.
    + exact C.
  - assert (K : line j t < line i t).
    { destruct (Qc_neq_lt _ _ Eb0); auto. exfalso. qlra. }
    destruct (crossing2 i j s t) as (t' & E1 & E2 & E3 & E4 & E5 & E6); auto.
    rewrite E1. cbn [bind]. eexists _, _; split; [reflexivity|]. split; [reflexivity|].
    vline. split; [|intros Hs; constructor; auto].
    eapply arep_push with (t := t'); [|reflexivity|qlra|auto|].
    + eapply arep_push with (t := t); [apply ainv_push; exact Inv|reflexivity|qlra|left; qlra|].
      intros u U1 U2. rewrite line_cut. rewrite <- (qmin_r (line i u) (line j u)); [apply Hf; qr|]. apply E6; qr.
    + intros u U1 U2. rewrite <- (qmin_l (line i u) (line j u)); [apply Hf; qr|]. apply E5; qr.
  - assert (K : line j t < line i t).
    { destruct (Qc_neq_lt _ _ Eb0); auto. exfalso. qlra. }
    eexists _, _; split; [reflexivity|]. split; [reflexivity|]. split; auto.
    eapply arep_push with (t := t); [apply ainv_push; exact Inv|reflexivity|qlra|auto|].
    intros u U1 U2. rewrite line_cut. rewrite <- (qmin_r (line i u) (line j u)); [apply Hf; qr|].
    apply (line_between j i s u t); auto; qr.
Qed.

Variable P : Qc -> Qc -> Qc -> Prop.

Lemma seg_and_loop_ok : forall p il i j z t c,
  merged cl P b (p :: il) j t ->
  (forall u v w, b <= u -> rlt cl u t -> P u v w -> Q u (qmin v w)) ->
  b <= time i -> time p <= time i -> (b < time p -> time i = time p) -> (time p <= b -> time i = b) ->
  (forall u, line i u = line p u) -> time i <= t ->
  hd_lt j -> ainv i z t c -> (c = true -> time i < t) ->
  exists z' t' c' sj j',
    seg_and_loop i z t c j = Ok (z', t', c', sj :: j') /\
    time sj <= time i /\ time i <= t' /\ t' <= t /\ merged cl P b (p :: il) (sj :: j') t' /\ ainv i z' t' c' /\
    (t' = t /\ c' = c /\ z' = z \/ time i < t').
Proof.
  intros p il i j z t c D HQ Hb Hp Hp1 Hp2 HL. revert z c HQ.
  remember (p :: il) as pl eqn:Epl. revert p il Epl Hp Hp1 Hp2 HL.
  induction D as [p0 i0 q j t L1 L2 E | p0 i0 q j t L1 L2 L3 E D IH | p0 i0 q j t L1 L2 L3 E D IH
                 | p0 i0 q j t L1 L2 L3 E D IH];
    intros p il Epl Hp Hp1 Hp2 HL z c HQ Ht Hh Inv Hc; inversion Epl; subst p0 i0; cbn [seg_and_loop].
  - qcase; [exfalso; rewrite Hp2 in *; qlra|].
    exists z, t, c, q, j. repeat split; auto; try qr. apply m_end; auto.
  - assert (K : time i < time q).
    { destruct (Qclt_le_dec b (time p)) as [C|C]; [rewrite Hp1|rewrite Hp2]; auto. }
    qcase; [|exfalso; qlra].
    destruct (seg_and_body_ok i z t c q) as (z1 & c1 & E1 & Inv1); auto.
    { destruct (Hh q _ eq_refl); auto. exfalso; qlra. }
    { intros u U1 U2. apply HQ; try qr. rewrite HL. auto. }
    rewrite E1. cbn [bind].
    destruct (IH p il eq_refl Hp Hp1 Hp2 HL z1 c1) as (z' & t' & c' & sj & j' & E2 & R1 & R2 & R3 & R4 & R5 & R6); auto; try qlra.
    { intros u v w U1 U2. apply HQ; auto. qr. }
    { intros q0 j0 E0. destruct (Hh q _ eq_refl) as [K'|K']; [|exfalso; qlra].
      rewrite E0 in D. destruct (merged_hd _ _ _ _ _ _ _ _ D) as [_ [H|H]]; auto. left. qlra. }
    exists z', t', c', sj, j'. repeat split; auto; try qlra.
    right. destruct R6 as [(-> & _)|R6]; auto.
  - assert (K : time q <= time i) by qlra.
    qcase; [exfalso; qlra|].
    exists z, t, c, q, j. repeat split; auto; try qr. apply m_i; auto.
  - assert (K : time q <= time i) by qlra.
    qcase; [exfalso; qlra|].
    exists z, t, c, q, j. repeat split; auto; try qr. apply m_ij; auto.
Qed.

Lemma computeSegmentAnd_ok : forall p il i j z t,
  merged cl P b (p :: il) j t ->
  (forall u v w, b <= u -> rlt cl u t -> P u v w -> Q u (qmin v w)) ->
  b <= time i -> time p <= time i -> (b < time p -> time i = time p) -> (time p <= b -> time i = b) ->
  (forall u, line i u = line p u) ->
  time i <= t -> t <= e -> time i < e \/ time i = b ->
  hd_lt j -> arep z t ->
  exists r z' sj j',
    computeSegmentAnd z i t j = Ok (r :: z', sj :: j') /\
    time r = time i /\ arep (r :: z') (time i) /\
    ((time i < t \/ z = []) -> Forall (fun q => time i < time q) z') /\
    time sj <= time i /\
    (exists t', time i <= t' /\ merged cl P b (p :: il) (sj :: j') t').
Proof.
  intros p il i j z t D HQ Hb Hp Hp1 Hp2 HL Ht Hte Hie Hh R. unfold computeSegmentAnd.
  destruct (seg_and_loop_ok p il i j z t false D HQ Hb Hp Hp1 Hp2 HL) as (z1 & t1 & c1 & sj & j1 & E1 & A1 & A2 & A3 & A4 & A5 & A6); auto.
  { split; auto. }
  { discriminate. }
  rewrite E1. cbn [bind deref].
  destruct (seg_and_last_ok i z1 t1 c1 sj) as (r & z' & E2 & B1 & B2 & B3); auto.
  { intros u U1 U2. apply HQ; try qr. rewrite HL. eapply merged_pair; eauto; qr. }
  rewrite E2. cbn [bind]. exists r, z', sj, j1. repeat split; auto; try apply B2.
  - intros Hs. apply B3. destruct A6 as [(-> & -> & ->)|A6]; [|auto]. destruct Hs as [Hs| ->]; auto.
  - exists t1. auto.
Qed.

Lemma computePartialAnd_merged : forall i j z t,
  b <= t -> t <= e ->
  merged cl P b i j t ->
  (forall u v w, b <= u -> rlt cl u t -> P u v w -> Q u (qmin v w)) ->
  hd_lt i -> hd_lt j -> arep z t -> (b < t \/ z = []) ->
  exists p z', computePartialAnd z i j b t = Ok (p :: z') /\
    time p = b /\ arep (p :: z') b /\ Forall (fun q => b < time q) z'.
Proof.
  induction i as [|p i IH]; intros j z t Hb Hte D HQ Hi Hj R Hs.
  { destruct (merged_inv _ _ _ _ _ _ D) as (? & ? & ? & ? & ? & ?). discriminate. }
  cbn [computePartialAnd]. qcase.
  - assert (Hpe : time p < e) by (destruct (Hi p _ eq_refl); auto; exfalso; qlra).
    assert (Hpt : time p <= t).
    { destruct (merged_inv _ _ _ _ _ _ D) as (p1 & i1 & q1 & j1 & E1 & E2). inversion E1; subst.
      destruct (merged_hd _ _ _ _ _ _ _ _ D) as [[H|H] _]; auto. exfalso; qlra. }
    destruct (computeSegmentAnd_ok p i p j z t) as (r & z' & sj & j' & E1 & A1 & A2 & A3 & A4 & A5); auto; try qlra.
    rewrite E1. cbn [bind deref].
    destruct A5 as (t' & T1 & T2).
    assert (Dn : merged cl P b i (if neqb (time sj) (time p) then tl (sj :: j') else sj :: j') (time p)).
    { cbn [tl]. inversion T2; subst; try (exfalso; qlra).
      - qcase; [exfalso; qlra|]. auto.
      - qcase; [auto|congruence]. }
    apply IH; auto; try qlra.
    + intros u v w U1 U2. apply HQ; auto. qr.
    + intros q0 i0 H0. rewrite H0 in Dn.
      destruct (merged_inv _ _ _ _ _ _ Dn) as (p1 & i1 & q1 & j1 & E2 & E3). rewrite E3 in Dn.
      destruct (merged_hd _ _ _ _ _ _ _ _ Dn) as [[H|H] _]; auto. left; qlra.
    + intros q0 j0 H0. rewrite H0 in Dn.
      destruct (merged_inv _ _ _ _ _ _ Dn) as (p1 & i1 & q1 & j1 & E2 & E3). rewrite E2 in Dn.
      destruct (merged_hd _ _ _ _ _ _ _ _ Dn) as [_ [H|H]]; auto. left; qlra.
  - qcase.
    + destruct (computeSegmentAnd_ok p i p j z t) as (r & z' & sj & j' & E1 & A1 & A2 & A3 & _); auto; try qlra.
      rewrite E1. cbn [bind]. rewrite Eb0 in *. exists r, z'. auto.
    + vline.
      destruct (computeSegmentAnd_ok p i (mkS b (line p b) (deriv p)) j z t)
        as (r & z' & sj & j' & E1 & A1 & A2 & A3 & _); auto; cbn [time]; try qlra.
      { intros u. apply line_cut. }
      rewrite E1. cbn [bind]. exists r, z'. auto.
Qed.
End And.

Lemma computePartialAnd_ok : forall cl f b e yf (xf : Qc -> Qc) i j z t,
  b <= t -> t <= e ->
  drep cl xf b i t -> drep cl yf b j t -> hd_lt b e i -> hd_lt b e j ->
  arep cl (fun u v => f u = v) b e z t -> (b < t \/ z = []) ->
  (forall u, b <= u -> rlt cl u t -> f u = qmin (xf u) (yf u)) ->
  exists p z', computePartialAnd z i j b t = Ok (p :: z') /\
    time p = b /\ arep cl (fun u v => f u = v) b e (p :: z') b /\ Forall (fun q => b < time q) z'.
Proof.
  intros cl f b e yf xf i j z t Hb Hte Di Dj Hi Hj R Hs Hf.
  eapply computePartialAnd_merged with (P := fun u v w => xf u = v /\ yf u = w); eauto.
  { apply (merged_of_drep cl (fun u v => xf u = v) (fun u w => yf u = w)); auto. }
  intros u v w U1 U2 [<- <-]. auto.
Qed.
