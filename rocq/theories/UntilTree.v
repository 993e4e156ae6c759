(** Until between formulas without until, and its combinations with not, and, or and =>. *)
From Coq Require Import List QArith Qcanon Bool String Lia.
From Verif Require Import Num Base Signal QcTac Spec Robust Repr AndProof NegProof SimplifyProof Lip Closed SigProof ResizeProof EvProof PlateauProof BoundedProof TimedProof UntilProof UntilTimed UntilClaims Front UntilFront Transducer StlSpec TreeProof ReadProof AtomProof ExprPass NodeProof TreeRob BoundProof Interval BoundPass StlClaims.
Import ListNotations.
Local Open Scope Qc_scope.

Lemma smax_le : forall a b : Qc, a <= smax a b /\ b <= smax a b.
Proof. intros a b. unfold smax. qcase; split; try apply Qcle_refl; qlra. Qed.

Section UTree.
Variable E : env Qc.
Variable w : nat.
Hypothesis LIN : e_ip E = LINEAR.
Hypothesis SPC : e_sem E = SPACE.
Hypothesis TR : trace w (e_data E).

Notation T := (last_time (e_data E)).
Notation val := (bound_value E).
Notation cst := (eff E).
Notation D := (e_data E).
Notation M := (e_M E).
Notation Rob := (rob cst val D).
Notation prep := (prep E).
Notation zb := BoundPass.zb.

(** ** The operands *)
(** The signal of an operand over [[s,e]]. *)
Definition opsig (f : fml Qc) (s e : Qc) (z : signal Qc) (g : Qc -> Qc) : Prop :=
  beginTime z = s /\ endTime z = e /\ crepQ (fun u v => g u = v) z /\ (forall u, s <= u -> u <= e -> Rob f u (g u)).

Lemma operand_pass : forall f s e, afrag val w f -> 0 <= s -> s <= e -> covers val T f e -> within cst D M f ->
  regular cst val D f s e ->
  exists v t g, compute_rob E (prep f s e) = Ok (v, t) /\ opsig f s e (tz t) g /\ v = g s /\
    (uncut val T f s e -> ready E w f s e (fun x => x = s) t).
Proof.
  intros f s e F H0 H1 C W RS.
  destruct (rob_pass E w LIN SPC TR f s e F H0 H1 C W RS) as (v & t & g & A1 & (A2 & A3 & A4 & A5 & A6) & A7).
  exists v, t, g. split; [exact A1|]. split; [split; auto|]. split; [exact A7|].
  intros UC. eapply (ready_pass E w LIN SPC TR); eauto. eapply covers_started; eauto.
Qed.

Lemma operand_bound : forall f s e t up, afrag val w f -> 0 <= s -> s <= e -> covers val T f e -> within cst D M f ->
  0 <= M -> regular cst val D f s e -> ready E w f s e (fun x => x = s) t ->
  exists v t' g, compute_bound E up t = Ok (v, t') /\ ready E w f s e (fun x => x = s) t' /\ opsig f s e (zb up t') g /\ v = g s.
Proof.
  intros f s e t up F H0 H1 C W HM RS R.
  assert (ST : started val T f s) by (eapply covers_started; eauto).
  destruct (bound_pass E w LIN SPC TR HM f s e (fun x => x = s) t up F H0 H1 ST W RS) as (v & t' & g & A1 & A2 & [B1 B2 B3 B4 B5 B6 B7] & A4); auto.
  { apply (clear_full val w); auto. }
  { intros x ->. apply Qcle_refl. }
  rewrite (kend_full val w) in * by auto.
  exists v, t', g. split; [exact A1|]. split; [exact A2|]. split; [|exact A4]. split; [exact B1|]. split; [exact B2|]. split; [exact B3|].
  intros u U1 U2. eapply (ib_full cst val w D M f up s e u); eauto.
Qed.

Lemma until_signal : forall l i r s e x y self xf yf, afrag val w l -> afrag val w r ->
  let a := val (ibegin i) in let b := val (iend i) in
  0 <= a -> a < b -> 0 <= s -> s <= e -> within cst D M l -> within cst D M r ->
  opsig l s (e + b) x xf -> opsig r (s + a) (e + b) y yf ->
  exists z v, compute_timed_until M self x y a b = Ok z /\ beginTime z = s /\ endTime z = e + b - a /\
    jfront s v z /\ Rob (FUntil l i r) s v.
Proof.
  intros l i r s e x y self xf yf Fl Fr a b A0 AB H0 H1 Wl Wr (X1 & X2 & X3 & X4) (Y1 & Y2 & Y3 & Y4).
  assert (BX : forall u, s <= u -> u <= e + b -> - M <= xf u /\ xf u <= M) by (intros u U1 U2; apply (rob_within cst val D M w l u); auto).
  assert (BY : forall u, s + a <= u -> u <= e + b -> - M <= yf u /\ yf u <= M) by (intros u U1 U2; apply (rob_within cst val D M w r u); auto).
  destruct (timed_front M self xf yf x y a b) as (z & v & Z1 & Z2 & Z3 & Z4 & Z5); auto; rewrite ?X1, ?X2, ?Y1, ?Y2, ?TreeRob.qmin_same; try qlra; auto.
  - intros u U1 U2. apply BY; auto.
  - left. fold b. qlra.
  - rewrite X1 in *. rewrite X2, Y2, TreeRob.qmin_same in *. exists z, v. do 4 (split; [auto|]).
    destruct Z5 as (h & P1 & P2). rewrite TreeRob.qmin_l in P2 by (fold b; qlra). cbn [rob]. fold a b.
    exists xf, yf, h. split; [intros; apply X4; qlra|]. split; [intros; apply Y4; qlra|]. split; [|exact P2]. intros u U1 U2. apply P1; qlra.
Qed.

(** ** The robustness pass *)
Fixpoint uready (f : fml Qc) (s e : Qc) (t : tree Qc) {struct f} : Prop :=
  match f, t with
  | FNot c, TNot n c' => uready c s e c'
  | FAnd l r, TAnd n l' r' | FOr l r, TOr n l' r' | FImp l r, TImp n l' r' =>
      start_time n = s /\ uready l s e l' /\ uready r s e r'
  | FUntil l i r, TUntil n l' i' r' => i' = i /\ start_time n = s /\ end_time n = e /\
      (uncut val T l s (e + val (iend i)) -> ready E w l s (e + val (iend i)) (fun x => x = s) l') /\
      (uncut val T r (s + val (ibegin i)) (e + val (iend i)) ->
       ready E w r (s + val (ibegin i)) (e + val (iend i)) (fun x => x = s + val (ibegin i)) r')
  | FAtom _ _ _, _ | FEv _ _, _ | FAlw _ _, _ => uncut val T f s e -> ready E w f s e (fun x => x = s) t
  | _, _ => False
  end.

Lemma afrag_pass : forall f s e, afrag val w f -> 0 <= s -> s <= e -> covers val T f e -> within cst D M f ->
  regular cst val D f s e ->
  exists v t, compute_rob E (prep f s e) = Ok (v, t) /\ jfront s v (tz t) /\ Rob f s v /\
    (uncut val T f s e -> ready E w f s e (fun x => x = s) t).
Proof.
  intros f s e F H0 H1 C W RS.
  destruct (rob_pass E w LIN SPC TR f s e F H0 H1 C W RS) as (v & t & g & A1 & (A2 & A3 & A4 & A5 & A6) & A7).
  exists v, t. split; [exact A1|]. split; [rewrite A7; apply (crep_jfront s (fun u v => g u = v)); auto; rewrite A3; auto|].
  split; [rewrite A7; apply A5; auto; apply Qcle_refl|].
  intros UC. eapply (ready_pass E w LIN SPC TR); eauto. eapply covers_started; eauto.
Qed.

Lemma until_pass : forall f s e, ufrag val w f -> 0 <= s -> s <= e -> covers val T f e -> within cst D M f ->
  regular cst val D f s e ->
  exists v t, compute_rob E (prep f s e) = Ok (v, t) /\ jfront s v (tz t) /\ Rob f s v /\ uready f s e t.
Proof.
  induction f; intros s e F H0 H1 C W RS; cbn [ufrag] in F; try contradiction; try (apply afrag_pass; assumption).
  - (* not *)
    destruct (IHf s e F H0 H1 C W RS) as (v & t & A1 & A2 & A3 & A4).
    change (prep (FNot f) s e) with (TNot (fresh s e) (prep f s e)). cbn [compute_rob]. rewrite A1. cbn [bind].
    pose proof (jfront_not _ _ _ A2) as R. rewrite (jfront_front _ _ _ R). cbn [bind].
    do 2 eexists. split; [reflexivity|]. split; [exact R|]. split; [cbn [rob]; eauto|exact A4].
  - (* and *)
    destruct F as [F1 F2]. destruct C as [C1 C2]. destruct W as [W1 W2]. destruct RS as [RS1 RS2].
    destruct (IHf1 s e F1 H0 H1 C1 W1 RS1) as (v1 & t1 & A1 & A2 & A3 & A4).
    destruct (IHf2 s e F2 H0 H1 C2 W2 RS2) as (v2 & t2 & B1 & B2 & B3 & B4).
    change (prep (FAnd f1 f2) s e) with (TAnd (fresh s e) (prep f1 s e) (prep f2 s e)). cbn [compute_rob].
    rewrite A1. cbn [bind]. rewrite B1. cbn [bind].
    destruct (smax_le (endTime (tz t1)) (endTime (tz t2))) as [L1 L2].
    destruct (jfront_and s v1 v2 _ _ (jfront_with_end _ _ _ _ A2 (Qcle_trans _ _ _ (proj1 (proj2 A2)) L1)) (jfront_with_end _ _ _ _ B2 (Qcle_trans _ _ _ (proj1 (proj2 B2)) L2))) as (z & Z1 & _ & _ & Z2).
    rewrite Z1. cbn [bind]. rewrite (jfront_front _ _ _ Z2). cbn [bind].
    do 2 eexists. split; [reflexivity|]. split; [exact Z2|]. split; [cbn [rob]; eauto 6|].
    cbn [uready]. auto.
  - (* or *)
    destruct F as [F1 F2]. destruct C as [C1 C2]. destruct W as [W1 W2]. destruct RS as [RS1 RS2].
    destruct (IHf1 s e F1 H0 H1 C1 W1 RS1) as (v1 & t1 & A1 & A2 & A3 & A4).
    destruct (IHf2 s e F2 H0 H1 C2 W2 RS2) as (v2 & t2 & B1 & B2 & B3 & B4).
    change (prep (FOr f1 f2) s e) with (TOr (fresh s e) (prep f1 s e) (prep f2 s e)). cbn [compute_rob].
    rewrite A1. cbn [bind]. rewrite B1. cbn [bind].
    destruct (smax_le (endTime (tz t1)) (endTime (tz t2))) as [L1 L2].
    destruct (jfront_or s v1 v2 _ _ (jfront_with_end _ _ _ _ A2 (Qcle_trans _ _ _ (proj1 (proj2 A2)) L1)) (jfront_with_end _ _ _ _ B2 (Qcle_trans _ _ _ (proj1 (proj2 B2)) L2))) as (z & Z1 & _ & _ & Z2).
    rewrite Z1. cbn [bind]. rewrite (jfront_front _ _ _ Z2). cbn [bind].
    do 2 eexists. split; [reflexivity|]. split; [exact Z2|]. split; [cbn [rob]; eauto 6|].
    cbn [uready]. auto.
  - (* implies *)
    destruct F as [F1 F2]. destruct C as [C1 C2]. destruct W as [W1 W2]. destruct RS as [RS1 RS2].
    destruct (IHf1 s e F1 H0 H1 C1 W1 RS1) as (v1 & t1 & A1 & A2 & A3 & A4).
    destruct (IHf2 s e F2 H0 H1 C2 W2 RS2) as (v2 & t2 & B1 & B2 & B3 & B4).
    change (prep (FImp f1 f2) s e) with (TImp (fresh s e) (prep f1 s e) (prep f2 s e)). cbn [compute_rob].
    rewrite A1. cbn [bind]. rewrite B1. cbn [bind]. unfold compute_implies.
    destruct (jfront_or s (- v1) v2 _ _ (jfront_not _ _ _ A2) B2) as (z & Z1 & _ & _ & Z2).
    rewrite Z1. cbn [bind]. rewrite (jfront_front _ _ _ Z2). cbn [bind].
    do 2 eexists. split; [reflexivity|]. split; [exact Z2|]. split; [cbn [rob]; eauto 6|].
    cbn [uready]. auto.
  - (* until *)
    destruct F as (F1 & F2 & F3 & F4). destruct C as [C1 C2]. destruct W as [W1 W2]. destruct RS as [RS1 RS2].
    destruct (operand_pass f1 s (e + val (iend i))) as (v1 & t1 & g1 & A1 & A2 & _ & A3); auto; try qlra.
    destruct (operand_pass f2 (s + val (ibegin i)) (e + val (iend i))) as (v2 & t2 & g2 & B1 & B2 & _ & B3); auto; try qlra.
    change (prep (FUntil f1 i f2) s e) with (TUntil (fresh s e) (prep f1 s (e + val (iend i))) i (prep f2 (s + val (ibegin i)) (e + val (iend i)))).
    cbn [compute_rob]. rewrite A1. cbn [bind]. rewrite B1. cbn [bind].
    destruct (until_signal f1 i f2 s e (tz t1) (tz t2) (nz (fresh s e)) g1 g2) as (z & v & Z1 & Z2 & Z3 & Z4 & Z5); auto.
    rewrite Z1. cbn [bind].
    destruct (jfront_resize s v z n0 Z4 Z2 H0) as (z' & Y1 & Y2). change n0 with 0 in Y1 |- *. rewrite Y1. cbn [bind].
    rewrite (jfront_front _ _ _ Y2). cbn [bind].
    do 2 eexists. split; [reflexivity|]. split; [exact Y2|]. split; [exact Z5|].
    cbn [uready with_z start_time end_time]. auto 6.
Qed.

(** ** The interval passes *)
Lemma front_nonempty : forall s v z, jfront s v z -> is_empty z = false.
Proof. intros s v z (_ & _ & f & l & E1 & _). unfold is_empty. rewrite E1. reflexivity. Qed.
Lemma front_fill : forall s v z t d, jfront s v z -> fill_empty (e_ip E) z t d = Ok z.
Proof. intros s v z t d J. unfold fill_empty. rewrite (front_nonempty _ _ _ J). reflexivity. Qed.

Lemma within_mono : forall f m m', m <= m' -> within cst D m f -> within cst D m' f.
Proof.
  induction f; intros m m' L W; cbn [within] in *; auto; try (destruct W; split; eauto); eauto.
  intros t v H. destruct (W t v H). split; qlra.
Qed.

Lemma afrag_bound : forall f s e t up, afrag val w f -> 0 <= s -> s <= e -> covers val T f e -> within cst D M f ->
  0 <= M -> regular cst val D f s e -> ready E w f s e (fun x => x = s) t ->
  exists v t', compute_bound E up t = Ok (v, t') /\ ready E w f s e (fun x => x = s) t' /\ jfront s v (zb up t') /\
    beginTime (zb up t') = s /\ Rob f s v.
Proof.
  intros f s e t up F H0 H1 C W HM RS R.
  assert (ST : started val T f s) by (eapply covers_started; eauto).
  destruct (bound_pass E w LIN SPC TR HM f s e (fun x => x = s) t up F H0 H1 ST W RS) as (v & t' & g & A1 & A2 & [B1 B2 B3 B4 B5 B6 B7] & A4); auto.
  { apply (clear_full val w); auto. }
  { intros x ->. apply Qcle_refl. }
  rewrite (kend_full val w) in * by auto.
  exists v, t'. split; [exact A1|]. split; [exact A2|]. split; [rewrite A4; apply (crep_jfront s (fun u v => g u = v)); auto; rewrite B2; auto|]. split; [exact B1|].
  rewrite A4. eapply (ib_full cst val w D M f up s e s); eauto; try apply Qcle_refl. apply B4; auto. apply Qcle_refl.
Qed.

Lemma until_bound : forall f s e t up m, ufrag val w f -> 0 <= s -> s <= e -> covers val T f e -> m < M -> within cst D m f ->
  0 <= M -> regular cst val D f s e -> uncut val T f s e -> uready f s e t ->
  exists v t', compute_bound E up t = Ok (v, t') /\ uready f s e t' /\ jfront s v (zb up t') /\ beginTime (zb up t') = s /\ Rob f s v.
Proof.
  assert (AF : forall f s e t up m, afrag val w f -> 0 <= s -> s <= e -> covers val T f e -> m < M -> within cst D m f ->
    0 <= M -> regular cst val D f s e -> uncut val T f s e -> (uncut val T f s e -> ready E w f s e (fun x => x = s) t) ->
    exists v t', compute_bound E up t = Ok (v, t') /\ (uncut val T f s e -> ready E w f s e (fun x => x = s) t') /\
      jfront s v (zb up t') /\ beginTime (zb up t') = s /\ Rob f s v).
  { intros f s e t up m F H0 H1 C Lm W HM RS UC R.
    destruct (afrag_bound f s e t up) as (v & t' & A1 & A2 & A3); auto.
    - eapply within_mono; [|exact W]. qlra.
    - exists v, t'. auto. }
  induction f; intros s e t up m F H0 H1 C Lm W HM RS UC R; cbn [ufrag] in F; try contradiction;
    try (cbn [uready] in *; eapply AF; eauto).
  - (* not *)
    destruct t as [| | | | | | |n c| | | | | |]; cbn [uready] in R; try contradiction.
    destruct (IHf s e c (negb up) m F H0 H1 C Lm W HM RS UC R) as (v & c' & A1 & A2 & A3 & A4 & A5).
    cbn [compute_bound]. rewrite A1. cbn [bind].
    assert (ZN : (if up then tlow c' else tup c') = zb (negb up) c') by (destruct up; reflexivity). rewrite ZN.
    rewrite (front_nonempty _ _ _ A3). pose proof (jfront_not _ _ _ A3) as R'. rewrite (jfront_front _ _ _ R'). cbn [bind].
    do 2 eexists. split; [reflexivity|]. split; [destruct up; exact A2|].
    assert (ZB : zb up (TNot (if up then with_up n (compute_not (zb (negb up) c')) else with_low n (compute_not (zb (negb up) c'))) c') = compute_not (zb (negb up) c')) by (destruct up; reflexivity).
    rewrite ZB. split; [exact R'|]. split; [exact A4|]. cbn [rob]. eauto.
  - (* and *)
    destruct t as [| | | | | | | |n l r| | | | |]; cbn [uready] in R; try contradiction. destruct R as (N1 & R1 & R2).
    destruct F as [F1 F2]. destruct C as [C1 C2]. destruct W as [W1 W2]. destruct RS as [RS1 RS2]. destruct UC as [U1 U2].
    destruct (IHf1 s e l up m F1 H0 H1 C1 Lm W1 HM RS1 U1 R1) as (v1 & l' & A1 & A2 & A3 & A4 & A5).
    destruct (IHf2 s e r up m F2 H0 H1 C2 Lm W2 HM RS2 U2 R2) as (v2 & r' & B1 & B2 & B3 & B4 & B5).
    destruct (jfront_and s v1 v2 _ _ A3 B3) as (z & Z1 & ZB & Z3 & Z4). pose proof (proj1 (proj2 Z4)) as ZL.
    assert (ZS : beginTime z = s) by (rewrite ZB; cbn [compute_not beginTime]; rewrite A4, B4; apply TreeRob.qmax_same).
    destruct (jfront_cut s _ z (endTime z) (if up then TOP M else BOTTOM M) Z4 ZS ZL (Qcle_refl _)) as (z' & Y1 & Y2 & Y3 & _).
    cbn [compute_bound]. rewrite A1. cbn [bind]. rewrite B1. cbn [bind]. fold (zb up l') (zb up r'). rewrite Z1. cbn [bind].
    assert (EE : (if up then endTime z else smin (endTime (zb up l')) (endTime (zb up r'))) = endTime z).
    { destruct up; [reflexivity|]. rewrite smin_qmin. auto. }
    rewrite EE, N1, Y1. cbn [bind]. rewrite (front_fill _ _ _ _ _ Y2). cbn [bind]. rewrite (jfront_front _ _ _ Y2). cbn [bind].
    do 2 eexists. split; [reflexivity|]. split; [destruct up; cbn [uready with_up with_low start_time]; auto|].
    split; [destruct up; exact Y2|]. split; [destruct up; exact Y3|]. cbn [rob]. eauto 6.
  - (* or *)
    destruct t as [| | | | | | | | |n l r| | | |]; cbn [uready] in R; try contradiction. destruct R as (N1 & R1 & R2).
    destruct F as [F1 F2]. destruct C as [C1 C2]. destruct W as [W1 W2]. destruct RS as [RS1 RS2]. destruct UC as [U1 U2].
    destruct (IHf1 s e l up m F1 H0 H1 C1 Lm W1 HM RS1 U1 R1) as (v1 & l' & A1 & A2 & A3 & A4 & A5).
    destruct (IHf2 s e r up m F2 H0 H1 C2 Lm W2 HM RS2 U2 R2) as (v2 & r' & B1 & B2 & B3 & B4 & B5).
    destruct (jfront_or s v1 v2 _ _ A3 B3) as (z & Z1 & ZB & Z3 & Z4). pose proof (proj1 (proj2 Z4)) as ZL.
    assert (ZS : beginTime z = s) by (rewrite ZB; cbn [compute_not beginTime]; rewrite A4, B4; apply TreeRob.qmax_same).
    destruct (jfront_cut s _ z (endTime z) (if up then TOP M else BOTTOM M) Z4 ZS ZL (Qcle_refl _)) as (z' & Y1 & Y2 & Y3 & _).
    cbn [compute_bound]. rewrite A1. cbn [bind]. rewrite B1. cbn [bind]. fold (zb up l') (zb up r'). rewrite Z1. cbn [bind].
    assert (EE : (if up then smin (endTime (zb up l')) (endTime (zb up r')) else endTime z) = endTime z).
    { destruct up; [|reflexivity]. rewrite smin_qmin. auto. }
    rewrite EE, N1, Y1. cbn [bind]. rewrite (front_fill _ _ _ _ _ Y2). cbn [bind]. rewrite (jfront_front _ _ _ Y2). cbn [bind].
    do 2 eexists. split; [reflexivity|]. split; [destruct up; cbn [uready with_up with_low start_time]; auto|].
    split; [destruct up; exact Y2|]. split; [destruct up; exact Y3|]. cbn [rob]. eauto 6.
  - (* implies *)
    destruct t as [| | | | | | | | | |n l r| | |]; cbn [uready] in R; try contradiction. destruct R as (N1 & R1 & R2).
    destruct F as [F1 F2]. destruct C as [C1 C2]. destruct W as [W1 W2]. destruct RS as [RS1 RS2]. destruct UC as [U1 U2].
    destruct (IHf1 s e l (negb up) m F1 H0 H1 C1 Lm W1 HM RS1 U1 R1) as (v1 & l' & A1 & A2 & A3 & A4 & A5).
    destruct (IHf2 s e r up m F2 H0 H1 C2 Lm W2 HM RS2 U2 R2) as (v2 & r' & B1 & B2 & B3 & B4 & B5).
    destruct (jfront_or s (- v1) v2 _ _ (jfront_not _ _ _ A3) B3) as (z & Z1 & ZB & Z3 & Z4). pose proof (proj1 (proj2 Z4)) as ZL.
    assert (ZS : beginTime z = s) by (rewrite ZB; cbn [compute_not beginTime]; rewrite A4, B4; apply TreeRob.qmax_same).
    destruct (jfront_cut s _ z (endTime z) (if up then TOP M else BOTTOM M) Z4 ZS ZL (Qcle_refl _)) as (z' & Y1 & Y2 & Y3 & _).
    cbn [compute_bound]. rewrite A1. cbn [bind]. rewrite B1. cbn [bind]. fold (zb up r').
    assert (ZN : (if up then tlow l' else tup l') = zb (negb up) l') by (destruct up; reflexivity). rewrite ZN. rewrite Z1. cbn [bind].
    assert (EE : (if up then smin (endTime (compute_not (zb (negb up) l'))) (endTime (zb up r')) else endTime z) = endTime z).
    { destruct up; [|reflexivity]. rewrite smin_qmin. auto. }
    rewrite EE, N1, Y1. cbn [bind]. rewrite (front_fill _ _ _ _ _ Y2). cbn [bind]. rewrite (jfront_front _ _ _ Y2). cbn [bind].
    do 2 eexists. split; [reflexivity|]. split; [destruct up; cbn [uready with_up with_low start_time]; auto|].
    split; [destruct up; exact Y2|]. split; [destruct up; exact Y3|]. cbn [rob]. eauto 6.
  - (* until *)
    destruct t as [| | | | | | | | | | | | |n l i' r]; cbn [uready] in R; try contradiction. destruct R as (-> & N1 & N2 & R1 & R2).
    destruct F as (F1 & F2 & F3 & F4). destruct C as [C1 C2]. destruct W as [W1 W2].
    destruct RS as [RS1 RS2]. destruct UC as [U1 U2].
    assert (LM : m <= M) by qlra.
    assert (W1' : within cst D M f1) by (eapply within_mono; eauto). assert (W2' : within cst D M f2) by (eapply within_mono; eauto).
    destruct (operand_bound f1 s (e + val (iend i)) l up) as (v1 & l' & g1 & A1 & A2 & A3 & A4); auto; try qlra.
    destruct (operand_bound f2 (s + val (ibegin i)) (e + val (iend i)) r up) as (v2 & r' & g2 & B1 & B2 & B3 & B4); auto; try qlra.
    assert (ND : forall f u v, afrag val w f -> within cst D m f -> Rob f u v -> neqb v (if up then TOP M else BOTTOM M) = false).
    { intros f u v Cf Wf Rf. apply neqb_false. destruct (rob_within cst val D m w f u v Cf Wf Rf). intro X. destruct up.
      - change (TOP M) with M in X. qlra.
      - change (BOTTOM M) with (- M) in X. qlra. }
    destruct (until_signal f1 i f2 s e (zb up l') (zb up r') (if up then nup n else nlow n) g1 g2) as (z & v & Z1 & Z2 & Z3 & Z4 & Z5); auto.
    assert (V1 : Rob f1 s v1) by (rewrite A4; apply A3; qlra). assert (V2 : Rob f2 (s + val (ibegin i)) v2) by (rewrite B4; apply B3; qlra).
    cbn [compute_bound]. rewrite A1. cbn [bind]. rewrite (ND _ _ _ F3 W1 V1). rewrite B1. cbn [bind]. rewrite (ND _ _ _ F4 W2 V2).
    fold (zb up l') (zb up r'). rewrite Z1. cbn [bind].
    set (k := smax (start_time n) (smin (if up then nsub (endTime z) (val (iend i)) else endTime z) (end_time n))).
    assert (K : s <= k /\ k <= endTime z).
    { unfold k. rewrite N1, N2, smin_qmin, Z3. destruct up.
      - change (nsub (e + val (iend i) - val (ibegin i)) (val (iend i))) with (e + val (iend i) - val (ibegin i) - val (iend i)).
        unfold smax. qcase; qm; split; qlra.
      - unfold smax. qcase; qm; split; qlra. }
    destruct K as [K1 K2].
    destruct (jfront_cut s v z k n0 Z4 Z2 K1 K2) as (z' & Y1 & Y2 & Y3 & _).
    rewrite N1, Y1. cbn [bind]. rewrite (front_nonempty _ _ _ Y2), (jfront_front _ _ _ Y2). cbn [bind].
    do 2 eexists. split; [reflexivity|]. split; [destruct up; cbn [uready with_up with_low start_time end_time]; auto 6|].
    split; [destruct up; exact Y2|]. split; [destruct up; exact Y3|exact Z5].
Qed.
End UTree.

(** ** The claims *)
Section Claims.
Variable w : nat.
Variable E : env Qc.
Hypothesis U : usual w E.
Notation T := (last_time (e_data E)).
Notation val := (bound_value E).
Notation cst := (eff E).
Notation D := (e_data E).
Notation M := (e_M E).

Lemma until_exact : forall t f s e, stands_for t f -> ufrag val w f -> 0 <= s -> s <= e -> covers val T f e ->
  within cst D M f -> regular cst val D f s e ->
  exists v t', compute_rob E (prepare E t s e) = Ok (v, t') /\ rob cst val D f s v.
Proof.
  intros t f s e SF F H0 H1 C W RS. destruct U as (LIN & SPC & TR).
  destruct (until_pass E w LIN SPC TR f s e F H0 H1 C W RS) as (v & t' & A1 & A2 & A3 & _).
  pose proof (compute_rob_sim E _ _ (prepare_sim_skel E _ _ s e SF)) as SM. unfold prep in A1. rewrite A1 in SM.
  destruct (compute_rob E (prepare E t s e)) as [[v' t2]| | | |]; cbn [same] in SM; try contradiction.
  destruct SM as [<- _]. exists v', t2. auto.
Qed.

Lemma until_collapse : forall t f s e m, stands_for t f -> ufrag val w f -> 0 <= s -> s <= e -> covers val T f e ->
  m < M -> within cst D m f -> 0 <= M -> regular cst val D f s e -> uncut val T f s e ->
  exists v, numbers (evaluate E t s e) = Ok (v, v, v) /\ rob cst val D f s v.
Proof.
  intros t f s e m SF F H0 H1 C Lm W HM RS UC. rewrite (evaluate_skel E t (build f) s e SF). destruct U as (LIN & SPC & TR).
  assert (W' : within cst D M f) by (eapply within_mono; [|exact W]; qlra).
  destruct (until_pass E w LIN SPC TR f s e F H0 H1 C W' RS) as (v & t1 & A1 & A2 & A3 & A4).
  destruct (until_bound E w LIN SPC TR f s e t1 false m F H0 H1 C Lm W HM RS UC A4) as (lo & t2 & B1 & B2 & _ & _ & B3).
  destruct (until_bound E w LIN SPC TR f s e t2 true m F H0 H1 C Lm W HM RS UC B2) as (up & t3 & C1 & _ & _ & _ & C3).
  destruct TR as (_ & RI & _).
  rewrite (rob_unique cst val D RI f s _ _ B3 A3) in B1. rewrite (rob_unique cst val D RI f s _ _ C3 A3) in C1.
  exists v. split; auto. eapply ok_numbers; eauto.
Qed.
End Claims.

(** ** The range of the values *)
Lemma until_within : forall cst val data M w f t v, ufrag val w f -> within cst data M f -> rob cst val data f t v -> - M <= v /\ v <= M.
Proof.
  intros cst val data M w f. induction f; intros t x F W H; cbn [ufrag within] in *; try contradiction.
  - apply (W t). exact H.
  - cbn [rob] in H. destruct H as (y & H & ->). destruct (IHf _ _ F W H). split; qlra.
  - cbn [rob] in H. destruct H as (a & b & H1 & H2 & ->). destruct (IHf1 t a ltac:(tauto) ltac:(tauto) H1). destruct (IHf2 t b ltac:(tauto) ltac:(tauto) H2).
    destruct (qmin_cases a b) as [[-> ?]|[-> ?]]; auto.
  - cbn [rob] in H. destruct H as (a & b & H1 & H2 & ->). destruct (IHf1 t a ltac:(tauto) ltac:(tauto) H1). destruct (IHf2 t b ltac:(tauto) ltac:(tauto) H2).
    destruct (qmax_cases a b) as [[-> ?]|[-> ?]]; auto.
  - cbn [rob] in H. destruct H as (a & b & H1 & H2 & ->). destruct (IHf1 t a ltac:(tauto) ltac:(tauto) H1). destruct (IHf2 t b ltac:(tauto) ltac:(tauto) H2).
    destruct (qmax_cases (- a) b) as [[-> ?]|[-> ?]]; split; qlra.
  - exact (rob_within cst val data M w (FEv i f) t x F W H).
  - exact (rob_within cst val data M w (FAlw i f) t x F W H).
  - destruct H as (gl & gr & h & L & R & I & S1 & S2). destruct F as (F1 & F2 & F3 & F4). destruct W as [W1 W2].
    assert (BL : forall u, t <= u -> u <= t + val (iend i) -> - M <= gl u /\ gl u <= M) by (intros u U1 U2; exact (rob_within cst val data M w f1 u (gl u) F3 W1 (L u U1 U2))).
    assert (BR : forall u, t + val (ibegin i) <= u -> u <= t + val (iend i) -> - M <= gr u /\ gr u <= M) by (intros u U1 U2; exact (rob_within cst val data M w f2 u (gr u) F4 W2 (R u U1 U2))).
    assert (A1 : t + val (ibegin i) <= t + val (ibegin i)) by apply Qcle_refl. assert (A2 : t + val (ibegin i) <= t + val (iend i)) by qlra. split.
    + eapply Qcle_trans; [|apply (S1 (t + val (ibegin i)) A1 A2)]. cbn beta. destruct (I _ A1 A2) as [_ I2].
      assert (B : - M <= h (t + val (ibegin i))) by (apply I2; intros u U1 U2; apply BL; qlra).
      destruct (BR _ A1 A2). destruct (qmin_cases (gr (t + val (ibegin i))) (h (t + val (ibegin i)))) as [[-> _]|[-> _]]; auto.
    + apply S2. intros u U1 U2. destruct (BR u U1 U2). destruct (qmin_cases (gr u) (h u)) as [[-> ?]|[-> ?]]; qlra.
Qed.
Lemma until_all_within : forall w E, usual w E -> forall t f s e m, stands_for t f -> ufrag (bound_value E) w f -> 0 <= s -> s <= e ->
  covers (bound_value E) (last_time (e_data E)) f e -> m < e_M E -> within (eff E) (e_data E) m f -> 0 <= e_M E ->
  regular (eff E) (bound_value E) (e_data E) f s e -> uncut (bound_value E) (last_time (e_data E)) f s e ->
  exists r lo up, numbers (evaluate E t s e) = Ok (r, lo, up) /\ lo <= r /\ r <= up /\
    (- m <= r /\ r <= m) /\ (- m <= lo /\ lo <= m) /\ (- m <= up /\ up <= m).
Proof.
  intros w E U t f s e m SF F H0 H1 C Lm W HM RS UC.
  destruct (until_collapse w E U t f s e m SF F H0 H1 C Lm W HM RS UC) as (v & N & R).
  pose proof (until_within _ _ _ _ _ _ _ _ F W R). exists v, v, v. split; [exact N|]. split; [apply Qcle_refl|]. split; [apply Qcle_refl|]. auto.
Qed.
