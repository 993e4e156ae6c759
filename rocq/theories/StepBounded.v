(** computeBoundedEventually on step signals. *)
From Coq Require Import List QArith Qcanon Bool Lia.
From Verif Require Import Num Base Signal QcTac Spec Robust Repr AndProof NegProof SimplifyProof Lip BoolOps Closed SigProof ResizeProof EvProof PlateauProof BoundedProof StepPlateau StepSig StepOr.
Import ListNotations.
Local Open Scope Qc_scope.

Lemma or_hstep : forall x y b e f g, hstep x b e f -> hstep y b e g -> b < e ->
  exists z, computeOr x y = Ok z /\ hstep z b e (fun u => qmax (f u) (g u)).
Proof.
  intros x y b e f g [X1 X2 X3 X4 (px & lx & X5 & X5') X6 X7] [Y1 Y2 Y3 Y4 (py & ly & Y5 & Y5') Y6 Y7] Lt.
  destruct (split_lt e (samples x)) as (x1 & x2 & Ex & Fx1 & Fx2); [apply increasing_ordered; auto|].
  destruct (split_lt e (samples y)) as (y1 & y2 & Ey & Fy1 & Fy2); [apply increasing_ordered; auto|].
  assert (Hx : exists p l, x1 = p :: l /\ time p <= b).
  { destruct x1 as [|p x1]; cbn [app] in Ex.
    - rewrite X5 in Ex. subst x2. apply Forall_inv in Fx2. exfalso. qlra.
    - exists p, x1. split; auto. rewrite X5 in Ex. inversion Ex; subst. qlra. }
  assert (Hy : exists p l, y1 = p :: l /\ time p <= b).
  { destruct y1 as [|p y1]; cbn [app] in Ey.
    - rewrite Y5 in Ey. subst y2. apply Forall_inv in Fy2. exfalso. qlra.
    - exists p, y1. split; auto. rewrite Y5 in Ey. inversion Ey; subst. qlra. }
  assert (Vx : forall u, b <= u -> u < e -> eval x1 u = Some (f u)).
  { intros u U1 U2. specialize (X7 u U1 U2). rewrite Ex, eval_app in X7.
    assert (N : eval x2 u = None) by (apply eval_none; eapply Forall_lt_le; eauto). rewrite N in X7. auto. }
  assert (Vy : forall u, b <= u -> u < e -> eval y1 u = Some (g u)).
  { intros u U1 U2. specialize (Y7 u U1 U2). rewrite Ey, eval_app in Y7.
    assert (N : eval y2 u = None) by (apply eval_none; eapply Forall_lt_le; eauto). rewrite N in Y7. auto. }
  assert (Ix : increasing x1) by (rewrite Ex in X3; apply inc_app in X3; apply X3).
  assert (Iy : increasing y1) by (rewrite Ey in Y3; apply inc_app in Y3; apply Y3).
  assert (Zx : flat x1) by (rewrite Ex in X4; unfold flat in *; rewrite Forall_app in X4; apply X4).
  assert (Zy : flat y1) by (rewrite Ey in Y4; unfold flat in *; rewrite Forall_app in Y4; apply Y4).
  apply (or_step x y b e f g (fun u => qmax (f u) (g u)) x1 x2 y1 y2); auto using increasing_ordered.
  assert (Dx : drep false f b (rev x1) e).
  { apply drep_of_eval; auto using increasing_ordered. eapply Forall_impl; [|exact Fx1]. intros q Hq. cbn in Hq. qlra. }
  assert (Dy : drep false g b (rev y1) e).
  { apply drep_of_eval; auto using increasing_ordered. eapply Forall_impl; [|exact Fy1]. intros q Hq. cbn in Hq. qlra. }
  eapply starts_merged; [exact (merged_of_drep _ _ _ _ _ _ Dx _ Dy)|..]; auto using inc_sdec, flat_rev.
  intros u v w U1 U2 [<- <-]. reflexivity.
Qed.

(** Cutting the front of a step signal. *)
Lemma front_step : forall x s p0 l0, increasing (samples x) -> flat (samples x) -> samples x = p0 :: l0 -> time p0 <= s ->
  beginTime x <= s -> s <= endTime x ->
  exists l, resize_front x s = Ok (l, endTime x) /\ increasing l /\ flat l /\
    (exists p l', l = p :: l' /\ time p = s) /\
    (forall u, s <= u -> eval l u = eval (samples x) u) /\
    (forall q, In q l -> time q = s \/ In q (samples x)).
Proof.
  intros x s p0 l0 I Z E T B Be. unfold resize_front.
  assert (B0 : nltb s (beginTime x) = false) by (apply nltb_false; auto). rewrite B0.
  pose proof (pop_front_spec s (samples x) default_sample) as (pre & H).
  destruct (pop_front_lt s default_sample (samples x)) as [f l] eqn:Ep.
  destruct H as (H1 & H2 & H3 & H4).
  assert (Zl : flat l) by (rewrite H1 in Z; unfold flat in *; rewrite Forall_app in Z; apply Z).
  assert (Il : increasing l) by (rewrite H1 in I; apply inc_app in I; apply I).
  assert (Lf : l = [] \/ (exists q l', l = q :: l' /\ s < time q) -> deriv f = 0 /\ time f <= s /\
      (forall u, s <= u -> eval l u = None -> eval (samples x) u = Some (value f))).
  { intros K. destruct H4 as [[-> ->]|(r & ->)].
    - exfalso. cbn [app] in H1. rewrite H1 in E. destruct K as [->|(q & l' & -> & K)]; [discriminate|]. inversion E; subst. qlra.
    - rewrite Forall_app in H2. destruct H2 as [_ H2]. apply Forall_inv in H2.
      assert (Df : deriv f = 0).
      { rewrite H1 in Z. unfold flat in Z. rewrite !Forall_app in Z. destruct Z as [[_ Z] _]. apply Forall_inv in Z. auto. }
      split; [auto|]. split; [qlra|]. intros u U N. rewrite H1, eval_app, N, eval_back; [|qlra]. rewrite line_flat; auto. }
  destruct l as [|q l].
  - destruct (Lf (or_introl eq_refl)) as (F1 & F2 & F3). vline. rewrite line_flat by auto.
    assert (Bn : nltb (endTime x) s = false) by (apply nltb_false; auto). rewrite Bn.
    eexists. split; [reflexivity|]. split; [cbn; auto|]. split; [repeat constructor|]. split; [eauto|]. split.
    + intros u U. rewrite F3 by auto. cbn [eval time]. assert (C : nleb s u = true) by (apply nleb_true; auto). rewrite C.
      f_equal. exact (line_flat (mkS s (value f) n0) u (eq_refl _)).
    + intros q [<-|[]]. auto.
  - qtest (nltb s (time q)).
    + destruct Lf as (F1 & F2 & F3); [right; eauto|]. vline. rewrite line_flat by auto. rewrite F1.
      eexists. split; [reflexivity|]. split; [|split; [|split; [eauto|split]]].
      * split; auto. constructor; auto. destruct Il as [Il _]. eapply Forall_impl; [|exact Il]. intros r Hr. cbn in *. qlra.
      * constructor; auto.
      * intros u U. destruct (eval (q :: l) u) as [v|] eqn:Ev.
        -- rewrite (eval_cons_some _ _ _ v); auto. rewrite H1, eval_app, Ev. auto.
        -- rewrite F3 by auto. apply eval_none in Ev. rewrite eval_cons_all; auto. rewrite line_flat; auto.
      * intros r [<-|J]; auto. right. rewrite H1. apply in_or_app. auto.
    + assert (Tq : time q = s) by qlra. eexists. split; [reflexivity|]. split; [auto|]. split; [auto|]. split; [eauto|]. split.
      * intros u U. rewrite H1, eval_app. destruct (eval_some q l u) as (v & ->); [qlra|auto].
      * intros r J. right. rewrite H1. apply in_or_app. auto.
Qed.

Lemma cut_step : forall t l p l', increasing l -> flat l -> l = p :: l' -> time p <= t ->
  exists l1, pop_back_while (fun p => nltb t (time p)) l = l1 /\ increasing l1 /\ flat l1 /\ (exists l2, l1 = p :: l2) /\
    Forall (fun q => time q <= t) l1 /\ (forall u, u <= t -> eval l1 u = eval l u) /\ (forall q, In q l1 -> In q l).
Proof.
  intros t l p l' I Z E T. eexists. split; [reflexivity|].
  destruct (pop_back_le t l) as (l2 & E2 & F1 & F2); [apply increasing_ordered; auto|].
  set (l1 := pop_back_while (fun p => nltb t (time p)) l) in *. clearbody l1.
  split; [rewrite E2 in I; apply inc_app in I; apply I|].
  split; [rewrite E2 in Z; unfold flat in *; rewrite Forall_app in Z; apply Z|].
  split; [|split; [auto|split]].
  - rewrite E in E2. destruct l1 as [|q l1]; cbn [app] in E2.
    + subst l2. apply Forall_inv in F2. exfalso. qlra.
    + inversion E2; subst. eauto.
  - intros u U. rewrite E2, eval_app.
    assert (N : eval l2 u = None). { apply eval_none. eapply Forall_impl; [|exact F2]. intros q Hq. cbn in Hq. qlra. }
    rewrite N. auto.
  - intros q J. rewrite E2. apply in_or_app. auto.
Qed.

(** resize inside the domain. *)
Lemma resize_step : forall x s t v p0 l0, increasing (samples x) -> flat (samples x) -> samples x = p0 :: l0 -> time p0 <= s ->
  beginTime x <= s -> s <= t -> t <= endTime x ->
  exists z, resize x s t v = Ok z /\ beginTime z = s /\ endTime z = t /\ increasing (samples z) /\ flat (samples z) /\
    (exists p l, samples z = p :: l /\ time p = s) /\ Forall (fun q => time q <= t) (samples z) /\
    (forall u, s <= u -> u <= t -> eval (samples z) u = eval (samples x) u) /\
    (forall q, In q (samples z) -> time q = s \/ In q (samples x)).
Proof.
  intros x s t v p0 l0 I Z E T B1 B2 B3. unfold resize. rewrite eps_lt by auto.
  assert (BT : nltb t s = false) by (apply nltb_false; auto). rewrite BT.
  destruct (front_step x s p0 l0 I Z E T B1 ltac:(qlra)) as (l & E1 & I1 & Z1 & (p & l' & El & Tp) & V1 & J1).
  rewrite E1. cbn [bind]. unfold resize_back.
  assert (BE : nltb (endTime x) t = false) by (apply nltb_false; auto). rewrite BE. cbn [bind].
  destruct (cut_step t l p l' I1 Z1 El ltac:(qlra)) as (l1 & -> & I2 & Z2 & (l2 & ->) & F2 & V2 & J2).
  eexists. split; [reflexivity|]. cbn [samples beginTime endTime].
  split; [auto|]. split; [auto|]. split; [auto|]. split; [auto|]. split; [eauto|]. split; [auto|]. split.
  - intros u U1 U2. rewrite V2, V1; auto.
  - intros q J. auto.
Qed.

Lemma inc_shift : forall a l, increasing l -> increasing (map (shift_sample a) l).
Proof.
  intros a l. induction l as [|p l IH]; intros I; cbn; auto. destruct I as [I1 I2]. split; auto.
  rewrite Forall_map. eapply Forall_impl; [|exact I1]. intros q Hq. cbn in *. unfold nadd; cbn [NumQc]. qlra.
Qed.
Lemma flat_shift : forall a l, flat l -> flat (map (shift_sample a) l).
Proof. intros a l F. unfold flat in *. rewrite Forall_map. exact F. Qed.

Lemma starts_above : forall (G : Qc -> Qc -> Prop) b p i B j,
  Forall (fun q => time p < time q /\ b < time q /\ G (time q) (qmax (value p) (value q))) B ->
  starts G b (p :: i) j -> starts G b (p :: i) (B ++ j).
Proof. intros G b p i B j F S. induction F as [|q B (H1 & H2 & H3) F IH]; cbn [app]; auto. apply s_j; auto. Qed.

Lemma dup_sdec : forall b c l, ordered l ->
  (forall A p q B, l = A ++ p :: q :: B -> b < time p -> time p < time q \/ time p = c) -> Forall (fun q => time q < c) l ->
  forall t, Forall (fun q => time q < t) l -> sdec b t (rev l).
Proof.
  intros b c l. induction l as [|p l IH] using rev_ind; intros O H Fc t F; [exact Logic.I|].
  rewrite rev_app_distr. cbn [rev app sdec]. apply ordered_app in O. destruct O as (O1 & _ & O2).
  rewrite Forall_app in F, Fc. destruct F as [F1 F2], Fc as [Fc1 Fc2]. apply Forall_inv in F2. split; auto.
  intros B. apply IH; auto.
  - intros A p' q' B' -> K. apply (H A p' q' (B' ++ [p])); auto. rewrite <- app_assoc. reflexivity.
  - destruct l as [|r0 l0] using rev_ind; auto. clear IHl0.
    assert (R : time r0 < time p).
    { destruct (Qclt_le_dec b (time r0)) as [C|C]; [|qlra].
      destruct (H l0 r0 p []) as [K|K]; auto.
      - rewrite <- app_assoc. reflexivity.
      - rewrite Forall_app in Fc1. destruct Fc1 as [_ Fc1]. apply Forall_inv in Fc1. exfalso. qlra. }
    apply ordered_app in O1. destruct O1 as (_ & _ & O1). apply Forall_app. split; [|auto].
    apply Forall_forall. intros q J. specialize (O1 q r0 J ltac:(cbn; auto)). qlra.
Qed.

(** simplify on a strictly increasing step signal. *)
Lemma simplify_hstep : forall z b e g, hstep z b e g -> b < e -> exists z', simplify z = Ok z' /\ hstep z' b e g.
Proof.
  intros [zl zb ze] b e g [Hb He I Z (p & l & E & T) L V] Lt. cbn [samples beginTime endTime] in *. subst zl zb ze.
  destruct I as [I1 I2].
  destruct (simplify_ok p l b e) as (l' & S1 & S2 & S3 & S4 & S5 & _); auto.
  { apply increasing_ordered. split; auto. }
  { eapply Forall_impl; [|exact I1]. intros q Hq. cbn in Hq. qlra. }
  exists (mkSig (p :: l') b e). split; auto.
  destruct (simplify_inc (fun u => match eval (p :: l) u with Some v => v | None => 0 end) p l b e (mkSig (p :: l') b e)) as [J1 J2]; auto.
  { apply increasing_ordered. split; auto. }
  { eapply Forall_impl; [|exact I1]. intros q Hq. cbn in Hq. qlra. }
  { apply Forall_forall. intros q J. unfold flat in Z. rewrite Forall_forall in Z. split; auto.
    apply in_split in J. destruct J as (A & B & J). rewrite J. rewrite eval_at; auto. rewrite <- J. split; auto. }
  constructor; auto; cbn [samples beginTime endTime] in *; auto.
  - exists p, l'. auto.
  - inversion L; subst. constructor; auto.
  - intros u U1 U2. rewrite S4 by qlra. auto.
Qed.

Lemma step_hstep : forall x f, step x f -> hstep x (beginTime x) (endTime x) f.
Proof. intros x f [I Z F En Ev]. constructor; auto. intros u U1 U2. apply Ev; auto. qlra. Qed.

Section Bounded.
Variables (M a : Qc) (f : Qc -> Qc) (x : signal Qc).
Let b := beginTime x.
Let e := endTime x.
Let c := e - a.
Hypothesis Sx : step x f.
Hypothesis Ha : 0 < a.
Hypothesis Hbc0 : b <= c.
Hypothesis FB : forall u, b <= u -> u <= e -> - M <= f u.

(** Second operand: the signal read [a] later, [-M] from [c] on. *)
Lemma shifted_step : exists z2, resize x (b + a) (e + a) (- M) = Ok z2 /\
  let z := shift z2 (- a) in beginTime z = b /\ endTime z = e /\
  exists X, increasing X /\ flat X /\ (exists p l, X = p :: l /\ time p = b) /\ Forall (fun q => time q <= c) X /\
    (forall u, b <= u -> u <= c -> eval X u = Some (f (u + a))) /\
    (b < c -> forall q, In q X -> time q = c -> exists p, In p (samples x) /\ time p = e) /\
    (samples z = X ++ [mkS c (- M) 0] \/ (samples z = X /\ exists r bk, X = r ++ [bk] /\ value bk = - M)).
Proof.
  destruct Sx as [I Z (p0 & l0 & E & T) En Ev]. fold b e in T, En, Ev.
  assert (Be : b + a <= e) by (unfold c in Hbc0; qlra).
  destruct (front_step x (b + a) p0 l0 I Z E) as (l & E1 & I1 & Z1 & (p & l' & El & Tp) & V1 & J1); fold b e; try qlra.
  fold e in E1.
  unfold resize. rewrite eps_lt by qlra.
  assert (Bt : nltb (e + a) (b + a) = false) by (apply nltb_false; qlra). rewrite Bt, E1. cbn [bind].
  unfold resize_back.
  assert (Be' : nltb e (e + a) = true) by (apply nltb_true; qlra). rewrite Be'.
  assert (Nl : l <> []) by (rewrite El; discriminate).
  destruct (exists_last Nl) as (r & bk & Er).
  assert (Eb : back l = Ok bk) by (rewrite Er; apply back_app). rewrite Eb. cbn [bind].
  pose (X := map (shift_sample (- a)) l).
  assert (HX : increasing X /\ flat X /\ (exists p l, X = p :: l /\ time p = b) /\ Forall (fun q => time q <= c) X /\
    (forall u, b <= u -> u <= c -> eval X u = Some (f (u + a))) /\
    (b < c -> forall q, In q X -> time q = c -> exists p, In p (samples x) /\ time p = e)).
  { split; [apply inc_shift; auto|]. split; [apply flat_shift; auto|]. split; [|split; [|split]].
    - unfold X. rewrite El. cbn [map]. eexists _, _. split; [reflexivity|]. cbn. rewrite Tp. unfold nadd; cbn [NumQc]. ring.
    - unfold X. rewrite Forall_map. apply Forall_forall. intros q J. cbn. unfold nadd, c; cbn [NumQc].
      rewrite Forall_forall in En. destruct (J1 q J) as [K|K]; [rewrite K; qlra|]. specialize (En q K). cbn in En. qlra.
    - intros u U1 U2. unfold X. replace u with ((u + a) + - a) at 1 by ring. rewrite eval_shift, V1 by qlra. apply Ev; [qlra|unfold c in U2; qlra].
    - intros Hbc q J Tq. unfold X in J. apply in_map_iff in J. destruct J as (q' & <- & J). cbn in Tq. unfold nadd, c in Tq; cbn [NumQc] in Tq.
      destruct (J1 q' J) as [K|K]; [exfalso; unfold c in Hbc; qlra|]. exists q'. split; auto. qlra. }
  destruct (negb (neqb (value bk) (- M)) || negb (neqb (deriv bk) n0)) eqn:K.
  - assert (K' : match l ++ [mkS e (- M) n0] with [] => [mkS (b + a) (- M) n0] | _ => l ++ [mkS e (- M) n0] end = l ++ [mkS e (- M) n0]).
    { destruct l; reflexivity. }
    rewrite K'. eexists. split; [reflexivity|]. cbv zeta. unfold shift. cbn [samples beginTime endTime].
    split; [unfold nadd; cbn [NumQc]; ring|]. split; [unfold nadd; cbn [NumQc]; ring|].
    exists X. destruct HX as (X1 & X2 & X3 & X4 & X5 & X6). repeat (split; [assumption|]).
    left. rewrite map_app. cbn [map]. unfold shift_sample at 2. cbn [time value deriv]. reflexivity.
  - assert (K' : match l with [] => [mkS (b + a) (- M) n0] | _ => l end = l) by (destruct l; [congruence|reflexivity]).
    rewrite K'. eexists. split; [reflexivity|]. cbv zeta. unfold shift. cbn [samples beginTime endTime].
    split; [unfold nadd; cbn [NumQc]; ring|]. split; [unfold nadd; cbn [NumQc]; ring|].
    exists X. destruct HX as (X1 & X2 & X3 & X4 & X5 & X6). repeat (split; [assumption|]).
    right. split; [reflexivity|]. exists (map (shift_sample (- a)) r), (shift_sample (- a) bk). split.
    + unfold X. rewrite Er, map_app. reflexivity.
    + apply orb_false_iff in K. destruct K as [K _]. rewrite negb_false_iff in K. qb. cbn. auto.
Qed.

Lemma bounded_step : b < c -> exists z g, computeBoundedEventually M x a = Ok z /\ hstep z b e g /\
  forall u, b <= u -> u <= c -> (exists s, u <= s /\ s <= u + a /\ f s = g u) /\ (forall s, u <= s -> s <= u + a -> f s <= g u).
Proof.
  intros Hbc. assert (Be : b + a < e) by (unfold c in Hbc; qlra).
  assert (Ce : c < e) by (unfold c; qlra).
  destruct (plateau_step M f x a Sx Ha (Qclt_le_weak _ _ Be) FB) as (y & z1 & l1 & l2 & P1 & P2 & P3 & P4 & P5 & P6 & P7 & P8 & P9 & P10 & P11 & P12 & P13 & P14 & P15 & P16 & P17 & P18).
  fold b e in P2, P3, P5, P6, P9, P10, P11, P12, P13, P14, P15, P16, P17, P18. fold c in P12, P13, P14.
  destruct shifted_step as (z2 & Q1 & Q). cbv zeta in Q. destruct Q as (Q2 & Q3 & X & X1 & X2 & X3 & X4 & X5 & X6 & X7). specialize (X6 Hbc).
  pose (W := wmax M a y). pose (f2 := fun u => if nltb u c then f (u + a) else - M).
  pose (h := fun u => qmax (f2 u) (W u)). pose (G := fun u v => v = h u).
  assert (WM : forall u, - M <= W u) by (intros u; apply (wmax_spec M a y u)).
  assert (f2c : forall u, c <= u -> f2 u = - M).
  { intros u U. unfold f2. destruct (nltb u c) eqn:B; auto. qb. exfalso. qlra. }
  assert (f2l : forall u, u < c -> f2 u = f (u + a)).
  { intros u U. unfold f2. destruct (nltb u c) eqn:B; auto. qb. exfalso. qlra. }
  assert (hc : forall u, c <= u -> h u = W u).
  { intros u U. unfold h. rewrite f2c by auto. apply qmax_r. auto. }
  assert (Wc : forall v, In (e, v) y -> v <= W c).
  { intros v J. destruct (wmax_spec M a y c) as (_ & _ & K). apply (K e v J); unfold c; qlra. }
  (* the samples of the plateau *)
  assert (O1 : ordered l1) by (rewrite P4 in P7; apply ordered_app in P7; apply P7).
  assert (Z1 : flat l1) by (rewrite P4 in P8; unfold flat in *; rewrite Forall_app in P8; apply P8).
  destruct (split_lt c l1 O1) as (A & D & EA & FA & FD).
  rewrite EA in O1. pose proof (proj1 (ordered_app _ _) O1) as (OA & OD & OAD).
  destruct (last_at c D OD) as (C & q & B & ED & Tq & FB').
  { destruct P13 as (r & J & T). rewrite EA in J. apply in_app_or in J. destruct J as [J|J]; [|eauto].
    rewrite Forall_forall in FA. specialize (FA r J). exfalso. qlra. }
  assert (FC : Forall (fun r => time r = c) C).
  { rewrite ED in OD, FD. apply ordered_app in OD. destruct OD as (_ & _ & OD). apply Forall_forall. intros r J.
    specialize (OD r q J ltac:(cbn; auto)). rewrite Forall_app in FD. destruct FD as [FD _]. rewrite Forall_forall in FD.
    specialize (FD r J). cbn in FD. qlra. }
  assert (VD : forall r, In r D -> value r = W (time r)).
  { intros r J. apply P11; [rewrite EA; apply in_or_app; auto|]. rewrite Forall_forall in FD. specialize (FD r J). cbn in FD. qlra. }
  assert (NC : (exists r, In r (samples x) /\ time r = e) -> C <> []).
  { intros K ->. specialize (P14 K). rewrite EA, ED, map_app, count_app in P14. cbn [app map] in P14.
    rewrite (count_0 c (map _ A)) in P14.
    2:{ rewrite Forall_map. eapply Forall_impl; [|exact FA]. intros r Hr K'. cbn in Hr. qlra. }
    unfold count in P14. cbn [filter] in P14.
    assert (H0 : count c (map (@time Qc) B) = 0%nat).
    { apply count_0. rewrite Forall_map. eapply Forall_impl; [|exact FB']. intros r Hr K'. cbn in Hr. qlra. }
    unfold count in H0. destruct (neqb (time q) c); cbn [length] in P14; lia. }
  (* the samples of the shifted signal *)
  destruct (split_lt c X) as (X' & Xc & EX & FX' & FXc); [apply increasing_ordered; auto|].
  destruct X3 as (p0 & lX & X3 & X3').
  assert (NX : exists r pl, X' = r ++ [pl]).
  { destruct X' as [|p1 X']; [|destruct (exists_last (l := p1 :: X')) as (r & pl & K); [discriminate|eauto]].
    cbn [app] in EX. subst Xc. rewrite X3 in FXc. apply Forall_inv in FXc. exfalso. qlra. }
  destruct NX as (rX & pl & EX').
  rewrite EX in X1, X2, X5, X6. pose proof (proj1 (inc_app _ _) X1) as (IX' & IXc & _).
  assert (ZX' : flat X') by (unfold flat in *; rewrite Forall_app in X2; apply X2).
  assert (Vl : value pl <= W c).
  { assert (Tl : b <= time pl /\ time pl < c /\ deriv pl = 0).
    { rewrite EX' in FX', ZX'. unfold flat in ZX'. rewrite Forall_app in FX', ZX'. destruct FX' as [_ K1], ZX' as [_ K2].
      apply Forall_inv in K1. apply Forall_inv in K2. split; [|auto].
      assert (Jl : In pl X) by (rewrite EX, EX'; apply in_or_app; left; apply in_or_app; cbn; auto).
      rewrite X3 in Jl. destruct Jl as [<-|Jl]; [qlra|]. rewrite <- EX, X3 in X1. destruct X1 as [X1 _].
      rewrite Forall_forall in X1. specialize (X1 pl Jl). cbn in X1. qlra. }
    destruct Tl as (Tl1 & Tl2 & Tl3).
    assert (K : forall s, time pl + a <= s -> s < e -> f s = value pl).
    { intros s S1 S2. assert (K : eval (X' ++ Xc) (s - a) = Some (f s)).
      { rewrite X5 by (unfold c; qlra). f_equal. f_equal. ring. }
      rewrite eval_app in K.
      assert (N : eval Xc (s - a) = None). { apply eval_none. eapply Forall_impl; [|exact FXc]. intros r Hr. cbn in Hr. unfold c in Hr. qlra. }
      rewrite N, EX', eval_back in K by qlra. rewrite line_flat in K by auto. congruence. }
    destruct (P18 (time pl + a)) as (v & J & Lv).
    - qlra.
    - unfold c in Tl2. qlra.
    - intros s S1 S2. rewrite !K; auto; unfold c in Tl2; qlra.
    - rewrite K in Lv by (unfold c in Tl2; qlra). specialize (Wc v J). qlra. }
  assert (Base : starts G b (rev X') (rev A)).
  { assert (DX : drep false (fun u => f (u + a)) b (rev X') c).
    { apply drep_of_eval; auto using increasing_ordered.
      - destruct X' as [|p1 X']; [destruct rX; discriminate|]. rewrite X3 in EX. inversion EX; subst. eexists _, _. split; [reflexivity|]. qlra.
      - eapply Forall_impl; [|exact FX']. intros r Hr. cbn in Hr. qlra.
      - intros u U1 U2. assert (K : eval (X' ++ Xc) u = Some (f (u + a))) by (apply X5; qlra). rewrite eval_app in K.
        assert (N : eval Xc u = None) by (apply eval_none; eapply Forall_lt_le; eauto). rewrite N in K. auto. }
    assert (DA : drep false W b (rev A) c).
    { apply drep_of_eval; auto.
      - destruct P9 as (r & l & P9 & P9'). destruct A as [|r' A]; [|rewrite P9 in EA; inversion EA; subst; eexists _, _; split; [reflexivity|qlra]].
        cbn [app] in EA. rewrite <- EA, P9 in FD. apply Forall_inv in FD. exfalso. qlra.
      - eapply Forall_impl; [|exact FA]. intros r Hr. cbn in Hr. qlra.
      - intros u U1 U2. assert (K : eval l1 u = Some (W u)) by (apply P10; qlra). rewrite EA, eval_app in K.
        assert (N : eval D u = None) by (apply eval_none; eapply Forall_lt_le; eauto). rewrite N in K. auto. }
    eapply starts_merged; [exact (merged_of_drep _ _ _ _ _ _ DX _ DA)|..].
    - apply inc_sdec; auto.
    - apply (dup_sdec b c); auto. intros A' p' q' B' K. apply (P12 A' p' q' (B' ++ D)). rewrite EA, K, <- app_assoc. reflexivity.
    - apply flat_rev; auto.
    - apply flat_rev. rewrite EA in Z1. unfold flat in *. rewrite Forall_app in Z1. apply Z1.
    - auto.
    - intros u v w U1 U2 [<- <-]. unfold G, h. rewrite f2l by auto. reflexivity. }
  assert (AtC : forall C', Forall (fun r => time r = c /\ value r = W c) C' -> starts G b (rev X') (rev C' ++ rev A)).
  { intros C' FC'. rewrite EX', rev_app_distr in Base |- *. cbn [rev app] in Base |- *. apply starts_above; auto.
    apply Forall_rev. eapply Forall_impl; [|exact FC']. intros r [R1 R2]. cbn beta. rewrite R1, R2.
    rewrite EX' in FX'. rewrite Forall_app in FX'. destruct FX' as [_ FX']. apply Forall_inv in FX'. split; [auto|]. split; [auto|].
    unfold G. rewrite hc by qlra. apply qmax_r. auto. }
  assert (AtX : forall C', Forall (fun r => time r = c /\ value r = W c) C' -> ((exists r, In r (samples x) /\ time r = e) -> C' <> []) ->
    starts G b (rev X) (rev C' ++ rev A)).
  { intros C' FC' NC'. rewrite EX. destruct Xc as [|pc Xc]; [rewrite app_nil_r; apply AtC; auto|].
    assert (Tc : time pc = c).
    { pose proof (Forall_inv FXc) as K. cbn in K. rewrite EX, Forall_app in X4. destruct X4 as [_ X4]. apply Forall_inv in X4. qlra. }
    assert (E0 : Xc = []).
    { destruct Xc as [|p2 Xc]; auto. exfalso. destruct IXc as [IXc _]. apply Forall_inv in IXc.
      rewrite EX, Forall_app in X4. destruct X4 as [_ X4]. apply Forall_inv_tail in X4. apply Forall_inv in X4. cbn in IXc. qlra. }
    subst Xc.
    assert (Nn : C' <> []). { apply NC'. apply (X6 pc); auto. apply in_or_app. cbn; auto. }
    destruct (exists_last Nn) as (C2 & q2 & EC). rewrite EC in FC' |- *. rewrite Forall_app in FC'. destruct FC' as [FC2 Fq]. apply Forall_inv in Fq. destruct Fq as [Fq1 Fq2].
    rewrite !rev_app_distr. cbn [rev app]. apply s_ij; [congruence|qlra| |apply AtC; auto].
    unfold G. rewrite Tc, hc by qlra. rewrite Fq2. apply qmax_r.
    assert (Vp : value pc = f e).
    { pose proof (eval_at X' pc [] X1) as K. rewrite Tc, X5 in K by qlra. replace (c + a) with e in K by (unfold c; ring). congruence. }
    rewrite Vp. destruct P17 as (v & J & Lv). specialize (Wc v J). qlra. }
  assert (FCv : Forall (fun r => time r = c /\ value r = W c) C).
  { apply Forall_forall. intros r J. rewrite Forall_forall in FC. specialize (FC r J). split; auto. rewrite <- FC. apply VD. rewrite ED. apply in_or_app; auto. }
  assert (Vq : value q = W c). { rewrite <- Tq. apply VD. rewrite ED. apply in_or_app. cbn; auto. }
  assert (VB : forall r, In r B -> c < time r /\ value r = W (time r)).
  { intros r J. rewrite Forall_forall in FB'. split; [apply FB'; auto|]. apply VD. rewrite ED. apply in_or_app. cbn; auto. }
  assert (FBh : forall p : smp, time p <= c -> value p = - M ->
    Forall (fun q => time p < time q /\ b < time q /\ G (time q) (qmax (value p) (value q))) (rev B)).
  { intros p T V. apply Forall_rev, Forall_forall. intros r J. destruct (VB r J) as [R1 R2]. split; [qlra|]. split; [qlra|].
    unfold G. rewrite hc by qlra. rewrite V, R2. apply qmax_r. auto. }
  (* the first disjunction *)
  set (w := shift z2 (- a)) in *.
  assert (H3 : exists z3, computeOr w z1 = Ok z3 /\ hstep z3 b e (fun u => qmax (f2 u) (W u))).
  { assert (El1 : rev l1 = rev B ++ q :: rev C ++ rev A).
    { rewrite EA, ED, !rev_app_distr. cbn [rev]. rewrite <- !app_assoc. reflexivity. }
    destruct X7 as [X7|(X7 & r & bk & X8 & X9)].
    - apply (or_step w z1 b e f2 W h (X ++ [mkS c (- M) 0]) [] l1 l2); auto.
      + qlra.
      + rewrite app_nil_r. auto.
      + apply Forall_app. split; [|constructor; [exact Ce|constructor]]. eapply Forall_impl; [|exact X4]. intros r Hr. cbn in Hr. qlra.
      + rewrite X7. apply ordered_app. split; [rewrite EX; apply increasing_ordered; auto|]. split; [cbn; auto|].
        intros r s J [<-|[]]. cbn [time]. rewrite Forall_forall in X4. apply X4; auto.
      + exists p0, (lX ++ [mkS c (- M) 0]). split; [rewrite X3; reflexivity|qlra].
      + destruct P9 as (r & l & K & K'). exists r, l. split; auto. qlra.
      + intros u U1 U2. rewrite eval_app. cbn [eval time]. qtest (nleb c u).
        * f_equal. rewrite f2c by auto. exact (line_flat (mkS c (- M) 0) u (eq_refl _)).
        * rewrite f2l by auto. rewrite EX. apply X5; auto. qlra.
      + unfold flat. apply Forall_app. split; [rewrite EX; auto|repeat constructor].
      + change (starts G b (rev (X ++ [mkS c (- M) 0])) (rev l1)). rewrite El1, rev_app_distr. cbn [rev app].
        apply starts_above; [apply FBh; cbn; auto; qlra|]. apply s_ij; [exact Tq|exact Hbc| |].
        * cbn [time value]. unfold G. rewrite hc by qlra. rewrite Vq. apply qmax_r. auto.
        * apply AtX; auto.
    - assert (Xb : time bk <= c /\ deriv bk = 0).
      { rewrite <- EX in X2. rewrite X8 in X2, X4. unfold flat in X2. rewrite Forall_app in X2, X4. destruct X2 as [_ X2], X4 as [_ X4].
        apply Forall_inv in X2. apply Forall_inv in X4. auto. }
      apply (or_step w z1 b e f2 W h X [] l1 l2); auto.
      + qlra.
      + rewrite app_nil_r. auto.
      + eapply Forall_impl; [|exact X4]. intros r' Hr. cbn in Hr. qlra.
      + rewrite X7, EX. apply increasing_ordered. auto.
      + exists p0, lX. split; [auto|qlra].
      + destruct P9 as (r' & l & K & K'). exists r', l. split; auto. qlra.
      + intros u U1 U2. destruct (Qclt_le_dec u c) as [C1|C1].
        * rewrite f2l by auto. rewrite EX. apply X5; auto. qlra.
        * rewrite f2c by auto. destruct Xb as [Xb1 Xb2]. rewrite X8, eval_back by qlra. rewrite line_flat by auto. congruence.
      + rewrite EX. auto.
      + change (starts G b (rev X) (rev l1)). rewrite El1.
        assert (K : starts G b (rev X) (q :: rev C ++ rev A)).
        { pose proof (AtX (C ++ [q])) as K. rewrite rev_app_distr in K. cbn [rev app] in K. apply K.
          - apply Forall_app. split; auto.
          - intros _ K'. destruct C; discriminate. }
        rewrite X8, rev_app_distr in K |- *. cbn [rev app] in K |- *. apply starts_above; auto. apply FBh; auto. apply Xb. }
  destruct H3 as (z3 & C3 & S3).
  destruct (or_hstep x z3 b e f (fun u => qmax (f2 u) (W u))) as (z4 & C4 & S4); auto.
  { apply step_hstep; auto. }
  { qlra. }
  destruct (simplify_hstep _ _ _ _ S4) as (z & C5 & S5); [qlra|].
  exists z, (fun u => qmax (f u) (qmax (f2 u) (W u))). split; [|split; auto].
  - unfold computeBoundedEventually. rewrite P1. cbn [bind]. fold b e.
    change (nadd b a) with (b + a). change (nadd e a) with (e + a). change (BOTTOM M) with (- M). rewrite Q1. cbn [bind].
    change (nopp a) with (- a). fold w. rewrite C3. cbn [bind]. rewrite C4. cbn [bind]. auto.
  - intros u U1 U2. assert (Ub : - M <= f u) by (apply FB; qlra).
    assert (Ue : u + a <= e) by (unfold c in U2; qlra).
    destruct (wmax_spec M a y u) as (W1 & W2 & W3). fold W in W1, W2, W3. split.
    + destruct (qmax_cases (f u) (qmax (f2 u) (W u))) as [[-> K]|[-> K]]; [exists u; split; [qlra|]; split; [qlra|auto]|].
      destruct (qmax_cases (f2 u) (W u)) as [[K2 K3]|[K2 K3]]; rewrite K2 in *.
      * destruct (Qclt_le_dec u c) as [C1|C1].
        -- rewrite f2l in * by auto. exists (u + a). split; [qlra|]. split; [qlra|auto].
        -- rewrite f2c in * by auto. exists u. split; [qlra|]. split; qlra.
      * destruct W1 as [W1|(t & J & T1 & T2)].
        -- exists u. split; [qlra|]. split; qlra.
        -- destruct (P15 t (W u) u J U1 T1) as (_ & s & R1 & R2 & R3). exists s. split; [auto|]. split; [qlra|auto].
    + intros s S1 S2. destruct (P16 u s U1 S1 ltac:(qlra)) as [K|(t & v & J & T1 & T2 & T3)].
      * rewrite K. destruct (qmax_cases (f u) (qmax (f2 u) (W u))) as [[-> ?]|[-> ?]]; qlra.
      * specialize (W3 t v J T1 ltac:(qlra)).
        destruct (qmax_cases (f u) (qmax (f2 u) (W u))) as [[-> ?]|[-> ?]]; destruct (qmax_cases (f2 u) (W u)) as [[? ?]|[? ?]]; qlra.
Qed.

(** The window is as long as the signal: only the first value matters. *)
Lemma bounded_whole : b = c -> exists z g, computeBoundedEventually M x a = Ok z /\ hstep z b e g /\
  (exists s, b <= s /\ s <= e /\ f s = g b) /\ (forall s, b <= s -> s <= e -> f s <= g b).
Proof.
  intros Hbc. assert (Be : b + a = e) by (unfold c in Hbc; qlra). assert (Lt : b < e) by qlra.
  destruct (plateau_step M f x a Sx Ha ltac:(fold b e; qlra) FB) as (y & z1 & l1 & l2 & P1 & P2 & P3 & P4 & P5 & P6 & P7 & P8 & P9 & P10 & P11 & P12 & P13 & P14 & P15 & P16 & P17 & P18).
  fold b e in P2, P3, P5, P6, P9, P10, P11, P12, P13, P14, P15, P16, P17, P18.
  destruct shifted_step as (z2 & Q1 & Q). cbv zeta in Q. destruct Q as (Q2 & Q3 & X & X1 & X2 & X3 & X4 & X5 & X6 & X7).
  destruct X3 as (p0 & lX & X3 & T0).
  assert (lX = []) as ->.
  { destruct lX as [|p1 lX]; auto. exfalso. rewrite X3 in X1, X4. destruct X1 as [X1 _]. apply Forall_inv in X1. apply Forall_inv_tail, Forall_inv in X4. cbn in X1, X4. qlra. }
  assert (D0 : deriv p0 = 0) by (rewrite X3 in X2; apply Forall_inv in X2; auto).
  pose (W := wmax M a y). pose (G := fun u v => v = W u).
  assert (WM : forall u, - M <= W u) by (intros u; apply (wmax_spec M a y u)).
  assert (O1 : ordered l1) by (rewrite P4 in P7; apply ordered_app in P7; apply P7).
  assert (Z1 : flat l1) by (rewrite P4 in P8; unfold flat in *; rewrite Forall_app in P8; apply P8).
  destruct (last_at b l1 O1) as (C & q & B & EL & Tq & FB').
  { destruct P9 as (r & l & -> & T). exists r. cbn; auto. }
  assert (Vq : value q = W b).
  { assert (K : eval l1 b = Some (W b)) by (apply P10; qlra). rewrite EL, eval_app, eval_cons_all in K; [|auto|qlra].
    rewrite line_flat in K; [congruence|]. rewrite EL in Z1. unfold flat in Z1. rewrite Forall_app in Z1. destruct Z1 as [_ Z1]. apply Forall_inv in Z1. auto. }
  assert (St : forall p i, time p = b -> value p = - M -> starts G b (p :: i) (rev l1)).
  { intros p i T V. rewrite EL, rev_app_distr. cbn [rev]. rewrite <- app_assoc. cbn [app]. apply starts_above.
    - apply Forall_rev, Forall_forall. intros r J. rewrite Forall_forall in FB'. specialize (FB' r J). cbn beta in FB'.
      rewrite T. split; [auto|]. split; [auto|]. unfold G. rewrite V, (P11 r); auto; [apply qmax_r; auto|]. rewrite EL. apply in_or_app. cbn; auto.
    - apply s_end; [qlra|qlra|]. unfold G. rewrite V, Vq. apply qmax_r. auto. }
  set (w := shift z2 (- a)) in *.
  assert (H3 : exists z3, computeOr w z1 = Ok z3 /\ hstep z3 b e (fun u => qmax (- M) (W u))).
  { destruct P9 as (r0 & k0 & P9 & P9').
    destruct X7 as [X7|(X7 & r & bk & X8 & X9)].
    - apply (or_step w z1 b e (fun _ => - M) W W (X ++ [mkS c (- M) 0]) [] l1 l2); auto.
      + rewrite app_nil_r. auto.
      + rewrite X3. constructor; [qlra|]. constructor; [cbn [time]; qlra|constructor].
      + rewrite X7, X3. cbn. repeat constructor. cbn. qlra.
      + rewrite X3. eexists _, _. split; [reflexivity|qlra].
      + exists r0, k0. split; [auto|qlra].
      + intros u U1 U2. rewrite eval_app. cbn [eval time]. assert (B1 : nleb c u = true) by (apply nleb_true; qlra). rewrite B1.
        f_equal. exact (line_flat (mkS c (- M) 0) u (eq_refl _)).
      + rewrite X3. cbn [app]. constructor; [exact D0|]. repeat constructor.
      + rewrite rev_app_distr. cbn [rev app]. apply St; auto.
    - rewrite X3 in X8. destruct r as [|r1 r]; [|destruct r; discriminate]. cbn [app] in X8. inversion X8; subst bk.
      apply (or_step w z1 b e (fun _ => - M) W W X [] l1 l2); auto.
      + rewrite app_nil_r. auto.
      + rewrite X3. constructor; [qlra|constructor].
      + rewrite X7, X3. cbn. auto.
      + rewrite X3. eexists _, _. split; [reflexivity|qlra].
      + exists r0, k0. split; [auto|qlra].
      + intros u U1 U2. rewrite X3, eval_cons_all by (auto; qlra). rewrite line_flat by auto. congruence.
      + rewrite X3. cbn [rev app]. apply St; auto. }
  destruct H3 as (z3 & C3 & S3).
  destruct (or_hstep x z3 b e f (fun u => qmax (- M) (W u))) as (z4 & C4 & S4); auto.
  { apply step_hstep; auto. }
  destruct (simplify_hstep _ _ _ _ S4) as (z & C5 & S5); auto.
  exists z, (fun u => qmax (f u) (qmax (- M) (W u))). split; [|split; auto].
  - unfold computeBoundedEventually. rewrite P1. cbn [bind]. fold b e.
    change (nadd b a) with (b + a). change (nadd e a) with (e + a). change (BOTTOM M) with (- M). rewrite Q1. cbn [bind].
    change (nopp a) with (- a). fold w. rewrite C3. cbn [bind]. rewrite C4. cbn [bind]. auto.
  - assert (Ub : - M <= f b) by (apply FB; qlra). rewrite (qmax_r (- M)) by auto.
    destruct (wmax_spec M a y b) as (W1 & W2 & W3). fold W in W1, W2, W3. split.
    + destruct (qmax_cases (f b) (W b)) as [[-> K]|[-> K]]; [exists b; split; [qlra|]; split; [qlra|auto]|].
      destruct W1 as [W1|(t & J & T1 & T2)].
      * exists b. split; [qlra|]. split; qlra.
      * destruct (P15 t (W b) b J (Qcle_refl _) T1) as (_ & s & R1 & R2 & R3). exists s. split; [auto|]. split; [qlra|auto].
    + intros s S1 S2. destruct (P16 b s (Qcle_refl _) S1 S2) as [K|(t & v & J & T1 & T2 & T3)].
      * rewrite K. destruct (qmax_cases (f b) (W b)) as [[-> ?]|[-> ?]]; qlra.
      * specialize (W3 t v J T1 ltac:(qlra)). destruct (qmax_cases (f b) (W b)) as [[-> ?]|[-> ?]]; qlra.
Qed.
End Bounded.

Lemma bounded_first : forall M a f x, step x f -> 0 < a -> beginTime x + a <= endTime x ->
  (forall u, beginTime x <= u -> u <= endTime x -> - M <= f u) ->
  exists z g, computeBoundedEventually M x a = Ok z /\ hstep z (beginTime x) (endTime x) g /\
    is_sup f (beginTime x) (beginTime x + a) (g (beginTime x)).
Proof.
  intros M a f x Sx Ha L FB.
  assert (K : forall v, (exists s, beginTime x <= s /\ s <= beginTime x + a /\ f s = v) -> (forall s, beginTime x <= s -> s <= beginTime x + a -> f s <= v) ->
    is_sup f (beginTime x) (beginTime x + a) v).
  { intros v (s & S1 & S2 & S3) H. split; auto. intros w W. rewrite <- S3. auto. }
  destruct (Qcle_lt_or_eq _ _ L) as [C|C].
  - destruct (bounded_step M a f x Sx Ha ltac:(qlra) FB ltac:(qlra)) as (z & g & E & H & V). exists z, g. split; [auto|]. split; [auto|].
    destruct (V (beginTime x) (Qcle_refl _) ltac:(qlra)) as [V1 V2]. apply K; auto.
  - destruct (bounded_whole M a f x Sx Ha ltac:(qlra) FB ltac:(qlra)) as (z & g & E & H & V1 & V2). exists z, g. split; [auto|]. split; [auto|].
    rewrite <- C in V1, V2. apply K; auto.
Qed.
