(** The lower bound of until on data that stops early. *)
From Coq Require Import List QArith Qcanon Bool String Lia.
From Verif Require Import Num Base Signal QcTac Spec Robust Repr AndProof NegProof SimplifyProof Lip Closed SigProof ResizeProof EvProof PlateauProof BoundedProof TimedProof UntilProof UntilTimed UntilClaims Front UntilFront Transducer StlSpec TreeProof ReadProof AtomProof ExprPass NodeProof TreeRob BoundProof Interval BoundPass StlClaims UntilTree.
Import ListNotations.
Local Open Scope Qc_scope.

(** A bound that is known beyond the start is not a default. *)
Lemma ib_known : forall cst val w D M m f up s e u v, afrag val w f -> s <= e -> started val (last_time D) f s -> within cst D m f ->
  s < kend val (last_time D) up f s e ->
  s <= u -> u <= kend val (last_time D) up f s e -> ib cst val D M up f s e u v -> - m <= v /\ v <= m.
Proof.
  intros cst val w D M m. set (T := last_time D).
  induction f; intros up s e u x F H ST W KS U1 U2 I; cbn [afrag started within] in *; try contradiction.
  - apply (W u). exact I.
  - destruct I as (y & I & ->). destruct (IHf (negb up) s e u y); auto. split; qlra.
  - destruct I as (y & z & I1 & I2 & ->). cbn [kend] in U2, KS.
    assert (U3 := qmin_le_l (kend val T up f1 s e) (kend val T up f2 s e)). assert (U4 := qmin_le_r (kend val T up f1 s e) (kend val T up f2 s e)).
    destruct (IHf1 up s e u y); try tauto; try qlra. destruct (IHf2 up s e u z); try tauto; try qlra. qm; split; qlra.
  - destruct I as (y & z & I1 & I2 & ->). cbn [kend] in U2, KS.
    assert (U3 := qmin_le_l (kend val T up f1 s e) (kend val T up f2 s e)). assert (U4 := qmin_le_r (kend val T up f1 s e) (kend val T up f2 s e)).
    destruct (IHf1 up s e u y); try tauto; try qlra. destruct (IHf2 up s e u z); try tauto; try qlra. qm; split; qlra.
  - destruct I as (y & z & I1 & I2 & ->). cbn [kend] in U2, KS.
    assert (U3 := qmin_le_l (kend val T (negb up) f1 s e) (kend val T up f2 s e)). assert (U4 := qmin_le_r (kend val T (negb up) f1 s e) (kend val T up f2 s e)).
    destruct (IHf1 (negb up) s e u y); try tauto; try qlra. destruct (IHf2 up s e u z); try tauto; try qlra. qm; split; qlra.
  - destruct F as (F1 & F2 & F3). cbn [ib] in I. cbn [kend] in U2, KS. fold T in I.
    remember (kend val T up f (s + val (ibegin i)) (e + val (iend i))) as k eqn:Hk.
    assert (KK : s + val (ibegin i) < k /\ (up = true -> s <= k - val (iend i))).
    { unfold kwin in KS. destruct up; [destruct (Qclt_le_dec (k - val (iend i)) s); [exfalso; qlra|]|]; split; intros; try discriminate; qm; qlra. }
    destruct KK as [KK KU].
    destruct I as [(-> & L & _)|(I1 & g & I2 & I3)]; [exfalso; specialize (KU eq_refl); qlra|].
    assert (U3 : u + val (ibegin i) <= qmin (u + val (iend i)) k).
    { unfold kwin in U2. destruct up; [specialize (I1 eq_refl); destruct (Qclt_le_dec (k - val (iend i)) s); [qlra|]|]; qm; qlra. }
    apply (is_ext_within true g (u + val (ibegin i)) (qmin (u + val (iend i)) k)); auto.
    intros u' V1 V2. apply (IHf up (s + val (ibegin i)) (e + val (iend i)) u'); auto; try qlra; fold T; rewrite <- ?Hk; auto; qm; qlra.
  - destruct F as (F1 & F2 & F3). cbn [ib] in I. cbn [kend] in U2, KS. fold T in I.
    remember (kend val T up f (s + val (ibegin i)) (e + val (iend i))) as k eqn:Hk.
    assert (KK : s + val (ibegin i) < k /\ (up = false -> s <= k - val (iend i))).
    { unfold kwin in KS. destruct up; cbn [negb] in KS; [|destruct (Qclt_le_dec (k - val (iend i)) s); [exfalso; qlra|]]; split; intros; try discriminate; qm; qlra. }
    destruct KK as [KK KU].
    destruct I as [(-> & L & _)|(I1 & g & I2 & I3)]; [exfalso; specialize (KU eq_refl); qlra|].
    assert (U3 : u + val (ibegin i) <= qmin (u + val (iend i)) k).
    { unfold kwin in U2. destruct up; cbn [negb] in U2; [|specialize (I1 eq_refl); destruct (Qclt_le_dec (k - val (iend i)) s); [qlra|]]; qm; qlra. }
    apply (is_ext_within false g (u + val (ibegin i)) (qmin (u + val (iend i)) k)); auto.
    intros u' V1 V2. apply (IHf up (s + val (ibegin i)) (e + val (iend i)) u'); auto; try qlra; fold T; rewrite <- ?Hk; auto; qm; qlra.
Qed.

Lemma within_le : forall cst D f m m', m <= m' -> within cst D m f -> within cst D m' f.
Proof.
  intros cst D. induction f; intros m m' L W; cbn [within] in *; auto; try (destruct W; split; eauto); eauto.
  intros t v H. destruct (W t v H). split; qlra.
Qed.

Lemma sided_ufrag : forall val w f up, sided val w up f -> ufrag val w f.
Proof.
  intros val w. induction f; intros up F; cbn [sided ufrag] in *; eauto; try (destruct F; split; eauto; fail). apply F.
Qed.

(** Results of a sequence of steps. *)
Lemma bind_ok : forall {A B} (x : res A) (k : A -> res B) y, bind x k = Ok y -> exists a, x = Ok a /\ k a = Ok y.
Proof. intros A B [a| | | |] k y H; cbn [bind] in H; try discriminate H. eauto. Qed.
Ltac steps H :=
  repeat (let a := fresh "a" in let Ha := fresh "Ha" in
          apply bind_ok in H; destruct H as (a & Ha & H); try (destruct a as [? ?])).

Section Online.
Variable w : nat.
Variables E E' : env Qc.
Hypothesis U' : usual w E'.
Hypothesis ND : e_data E <> [].
Hypothesis X : extends E E'.
Notation T := (last_time (e_data E)).
Notation T' := (last_time (e_data E')).
Notation val := (bound_value E).
Notation cst := (eff E).
Notation D := (e_data E).
Notation D' := (e_data E').
Notation M := (e_M E).
Notation zb := BoundPass.zb.
Notation uready := (uready E w).
Notation clear := (clear val T).

(** ** The state after the robustness pass *)
Lemma online_ready : forall f s e v t, ufrag val w f -> 0 <= s -> s <= e -> started val T f s -> within cst D M f ->
  regular cst val D f s e -> uncut val T f s e -> compute_rob E (prep E f s e) = Ok (v, t) -> uready f s e t.
Proof.
  pose proof (extends_usual w E E' U' ND X) as (LIN & SPC & TR).
  assert (AF : forall f s e v t, afrag val w f -> 0 <= s -> s <= e -> started val T f s -> within cst D M f ->
    regular cst val D f s e -> uncut val T f s e -> compute_rob E (prep E f s e) = Ok (v, t) -> uncut val T f s e -> ready E w f s e (fun x => x = s) t).
  { intros. eapply (ready_pass E w LIN SPC TR); eauto. }
  induction f; intros s e v0 t F H0 H1 ST W RS UC C; cbn [ufrag] in F; try contradiction;
    try (cbn [UntilTree.uready]; eapply AF; eassumption).
  - change (prep E (FNot f) s e) with (TNot (fresh s e) (prep E f s e)) in C. cbn [compute_rob] in C. steps C.
    injection C as <- <-. cbn [UntilTree.uready]. eapply IHf; eauto.
  - change (prep E (FAnd f1 f2) s e) with (TAnd (fresh s e) (prep E f1 s e) (prep E f2 s e)) in C. cbn [compute_rob] in C. steps C.
    injection C as <- <-. cbn [UntilTree.uready started within regular uncut] in *.
    destruct F, ST, W, RS, UC. split; [reflexivity|]. split; eauto.
  - change (prep E (FOr f1 f2) s e) with (TOr (fresh s e) (prep E f1 s e) (prep E f2 s e)) in C. cbn [compute_rob] in C. steps C.
    injection C as <- <-. cbn [UntilTree.uready started within regular uncut] in *.
    destruct F, ST, W, RS, UC. split; [reflexivity|]. split; eauto.
  - change (prep E (FImp f1 f2) s e) with (TImp (fresh s e) (prep E f1 s e) (prep E f2 s e)) in C. cbn [compute_rob] in C. steps C.
    injection C as <- <-. cbn [UntilTree.uready started within regular uncut] in *.
    destruct F, ST, W, RS, UC. split; [reflexivity|]. split; eauto.
  - change (prep E (FUntil f1 i f2) s e) with (TUntil (fresh s e) (prep E f1 s (e + val (iend i))) i (prep E f2 (s + val (ibegin i)) (e + val (iend i)))) in C.
    cbn [compute_rob] in C. steps C. injection C as <- <-. cbn [UntilTree.uready started within regular uncut] in *.
    destruct F as (F1 & F2 & F3 & F4), ST, W, RS, UC. split; [reflexivity|]. split; [reflexivity|]. split; [reflexivity|].
    split; intros _; eapply AF; try eassumption; qlra.
Qed.

Section Grid.
Variables (d m : Qc).
Hypothesis GD : neps < d.
Hypothesis GT : on_grid d T.
Hypothesis MP : 0 <= M.
Hypothesis ML : m < M.

Lemma bound_afrag : forall f s e t up, afrag val w f -> 0 <= s -> s <= e -> started val T f s -> within cst D M f ->
  regular cst val D f s e -> gridded val d f -> on_grid d s -> on_grid d e -> ready E w f s e (fun x => x = s) t ->
  exists v t' g, compute_bound E up t = Ok (v, t') /\ ready E w f s e (fun x => x = s) t' /\ bsig E up f s e (fun x => x = s) (zb up t') g /\ v = g s.
Proof.
  intros f s e t up F H0 H1 ST W RS GF GS GE R. pose proof (extends_usual w E E' U' ND X) as (LIN & SPC & TR).
  apply (bound_pass E w LIN SPC TR MP f s e (fun x => x = s) t up); auto.
  - apply (clear_grid val w d); auto.
  - intros x ->. apply Qcle_refl.
Qed.

(** ** The state after a pass *)
Lemma online_keeps : forall f s e t up v t', ufrag val w f -> 0 <= s -> s <= e -> started val T f s -> within cst D M f ->
  regular cst val D f s e -> uncut val T f s e -> gridded val d f -> on_grid d s -> on_grid d e -> uready f s e t ->
  compute_bound E up t = Ok (v, t') -> uready f s e t'.
Proof.
  assert (AF : forall f s e t up v t', afrag val w f -> 0 <= s -> s <= e -> started val T f s -> within cst D M f ->
    regular cst val D f s e -> uncut val T f s e -> gridded val d f -> on_grid d s -> on_grid d e ->
    (uncut val T f s e -> ready E w f s e (fun x => x = s) t) -> compute_bound E up t = Ok (v, t') ->
    uncut val T f s e -> ready E w f s e (fun x => x = s) t').
  { intros f s e t up v t' F H0 H1 ST W RS UC GF GS GE R C _.
    destruct (bound_afrag f s e t up) as (v2 & t2 & g & A1 & A2 & _); auto. rewrite A1 in C. injection C as <- <-. exact A2. }
  induction f; intros s e t up v0 t' F H0 H1 ST W RS UC GF GS GE R C; cbn [ufrag] in F; try contradiction;
    try (cbn [UntilTree.uready] in *; eapply AF; eassumption).
  - destruct t as [| | | | | | |n c| | | | | |]; cbn [UntilTree.uready] in R; try contradiction. cbn [compute_bound] in C. apply bind_ok in C. destruct C as ((vc & c') & Cc & C).
    assert (RC : uready f s e c') by (eapply IHf; eauto).
    destruct (is_empty _); steps C; injection C as <- <-; destruct up; exact RC.
  - destruct t as [| | | | | | | |n l r| | | | |]; cbn [UntilTree.uready] in R; try contradiction. cbn [compute_bound] in C. steps C.
    injection C as <- <-. cbn [started within regular uncut gridded] in *.
    destruct F, ST, W, RS, UC, GF. destruct R as (N1 & R1 & R2).
    destruct up; cbn [UntilTree.uready with_up with_low start_time]; (split; [exact N1|]); split; eauto.
  - destruct t as [| | | | | | | | |n l r| | | |]; cbn [UntilTree.uready] in R; try contradiction. cbn [compute_bound] in C. steps C.
    injection C as <- <-. cbn [started within regular uncut gridded] in *.
    destruct F, ST, W, RS, UC, GF. destruct R as (N1 & R1 & R2).
    destruct up; cbn [UntilTree.uready with_up with_low start_time]; (split; [exact N1|]); split; eauto.
  - destruct t as [| | | | | | | | | |n l r| | |]; cbn [UntilTree.uready] in R; try contradiction. cbn [compute_bound] in C. steps C.
    injection C as <- <-. cbn [started within regular uncut gridded] in *.
    destruct F, ST, W, RS, UC, GF. destruct R as (N1 & R1 & R2).
    destruct up; cbn [UntilTree.uready with_up with_low start_time]; (split; [exact N1|]); split; eauto.
  - destruct t as [| | | | | | | | | | | | |n l i' r]; cbn [UntilTree.uready] in R; try contradiction.
    destruct R as (-> & N1 & N2 & R1 & R2). cbn [started within regular uncut gridded] in *.
    destruct F as (F1 & F2 & F3 & F4), ST as [S1 S2], W as [W1 W2], RS as [RS1 RS2], UC as [UC1 UC2], GF as (Ga & Gb & G1 & G2).
    assert (GSA : on_grid d (s + val (ibegin i))) by (apply grid_add; auto).
    assert (GEB : on_grid d (e + val (iend i))) by (apply grid_add; auto).
    cbn [compute_bound] in C. apply bind_ok in C. destruct C as ((vl & l') & Cl & C).
    assert (RL : uncut val T f1 s (e + val (iend i)) -> ready E w f1 s (e + val (iend i)) (fun x => x = s) l')
      by (eapply AF; try eassumption; qlra).
    destruct (neqb vl _); [injection C as <- <-; cbn [UntilTree.uready]; auto 6|].
    apply bind_ok in C. destruct C as ((vr & r') & Cr & C).
    assert (RR : uncut val T f2 (s + val (ibegin i)) (e + val (iend i)) ->
      ready E w f2 (s + val (ibegin i)) (e + val (iend i)) (fun x => x = s + val (ibegin i)) r') by (eapply AF; try eassumption; qlra).
    destruct (neqb vr _); [injection C as <- <-; cbn [UntilTree.uready]; auto 6|].
    steps C. injection C as <- <-. destruct up; cbn [UntilTree.uready with_up with_low start_time end_time]; auto 6.
Qed.

(** ** The sound bound *)
Lemma later_ib : forall f up s e u v v', afrag val w f -> s <= e -> started val T f s -> within cst D' M f ->
  covers val T' f e -> s <= u -> u <= kend val T up f s e -> ib cst val D M up f s e u v -> rob cst val D' f u v' -> sharper up v v'.
Proof.
  intros f up s e u v v' F H ST W C U1 U2 I J.
  apply (ib_mono cst val w D D' M (extends_last w E E' U' ND X)) with (f := f) (s := s) (e := e) (u := u); auto.
  - intros g r x x' _ HU O1 O2. destruct X as (_ & _ & _ & _ & more & X3). destruct U' as (_ & _ & U3). rewrite X3 in *. eapply expr_prefix; eauto.
  - apply (full_ib cst val w); auto. pose proof (kend_bounds val w T f up s e F H ST) as [_ KB]. qlra.
Qed.

Lemma online_bound : forall f s e t up, sided val w up f -> 0 <= s -> s <= e -> started val T f s -> covers val T' f e -> within cst D' m f ->
  regular cst val D f s e -> uncut val T f s e -> gridded val d f -> on_grid d s -> on_grid d e -> begun val T up f s e -> uready f s e t ->
  exists v t', compute_bound E up t = Ok (v, t') /\ jfront s v (zb up t') /\ beginTime (zb up t') = s /\
    (forall v', rob cst val D' f s v' -> sharper up v v').
Proof.
  assert (AF : forall f s e t up, afrag val w f -> 0 <= s -> s <= e -> started val T f s -> covers val T' f e -> within cst D' m f ->
    regular cst val D f s e -> uncut val T f s e -> gridded val d f -> on_grid d s -> on_grid d e ->
    (uncut val T f s e -> ready E w f s e (fun x => x = s) t) ->
    exists v t', compute_bound E up t = Ok (v, t') /\ jfront s v (zb up t') /\ beginTime (zb up t') = s /\
      (forall v', rob cst val D' f s v' -> sharper up v v')).
  { intros f s e t up F H0 H1 ST C W RS UC GF GS GE R.
    assert (W' : within cst D' M f) by (eapply within_le; [|exact W]; qlra).
    assert (WD : within cst D M f) by (eapply extends_within; eauto).
    destruct (bound_afrag f s e t up) as (v & t' & g & A1 & A2 & [B1 B2 B3 B4 B5 B6 B7] & A4); auto.
    pose proof (kend_bounds val w T f up s e F H1 ST) as [K1 K2].
    exists v, t'. split; [exact A1|]. split; [rewrite A4; apply (crep_jfront s (fun u v => g u = v)); auto; rewrite B2; auto|]. split; [exact B1|].
    intros v' J. apply (later_ib f up s e s); auto; try apply Qcle_refl. rewrite A4. apply B4; auto. apply Qcle_refl. }
  induction f; intros s e t up F H0 H1 ST C W RS UC GF GS GE BG R; cbn [sided] in F; try contradiction;
    try (cbn [UntilTree.uready] in *; apply (AF _ s e); assumption).
  - (* not *)
    destruct t as [| | | | | | |n c| | | | | |]; cbn [UntilTree.uready] in R; try contradiction.
    destruct (IHf s e c (negb up) F H0 H1 ST C W RS UC GF GS GE BG R) as (v & c' & A1 & A3 & A4 & A5).
    cbn [compute_bound]. rewrite A1. cbn [bind].
    assert (ZN : (if up then tlow c' else tup c') = zb (negb up) c') by (destruct up; reflexivity). rewrite ZN.
    rewrite (front_nonempty _ _ _ A3). pose proof (jfront_not _ _ _ A3) as R'. rewrite (jfront_front _ _ _ R'). cbn [bind].
    do 2 eexists. split; [reflexivity|].
    assert (ZB : zb up (TNot (if up then with_up n (compute_not (zb (negb up) c')) else with_low n (compute_not (zb (negb up) c'))) c') = compute_not (zb (negb up) c')) by (destruct up; reflexivity).
    rewrite ZB. split; [exact R'|]. split; [exact A4|]. intros v' (x & Rx & ->). specialize (A5 x Rx). destruct up; cbn in *; qlra.
  - (* and *)
    destruct t as [| | | | | | | |n l r| | | | |]; cbn [UntilTree.uready] in R; try contradiction. destruct R as (N1 & R1 & R2).
    destruct F as [F1 F2]. destruct C as [C1 C2]. destruct W as [W1 W2]. destruct RS as [RS1 RS2]. destruct UC as [U1 U2]. destruct ST as [S1 S2]. destruct GF as [G1 G2]. destruct BG as [B1' B2'].
    destruct (IHf1 s e l up F1 H0 H1 S1 C1 W1 RS1 U1 G1 GS GE B1' R1) as (v1 & l' & A1 & A3 & A4 & A5).
    destruct (IHf2 s e r up F2 H0 H1 S2 C2 W2 RS2 U2 G2 GS GE B2' R2) as (v2 & r' & B1 & B3 & B4 & B5).
    destruct (jfront_and s v1 v2 _ _ A3 B3) as (z & Z1 & ZB & Z3 & Z4). pose proof (proj1 (proj2 Z4)) as ZL.
    assert (ZS : beginTime z = s) by (rewrite ZB; cbn [compute_not beginTime]; rewrite A4, B4; apply TreeRob.qmax_same).
    destruct (jfront_cut s _ z (endTime z) (if up then TOP M else BOTTOM M) Z4 ZS ZL (Qcle_refl _)) as (z' & Y1 & Y2 & Y3 & _).
    cbn [compute_bound]. rewrite A1. cbn [bind]. rewrite B1. cbn [bind]. fold (zb up l') (zb up r'). rewrite Z1. cbn [bind].
    assert (EE : (if up then endTime z else smin (endTime (zb up l')) (endTime (zb up r'))) = endTime z).
    { destruct up; [reflexivity|]. rewrite smin_qmin. auto. }
    rewrite EE, N1, Y1. cbn [bind]. rewrite (front_fill E _ _ _ _ _ Y2). cbn [bind]. rewrite (jfront_front _ _ _ Y2). cbn [bind].
    do 2 eexists. split; [reflexivity|].
    split; [destruct up; exact Y2|]. split; [destruct up; exact Y3|]. intros v' (x & y & Rx & Ry & ->). specialize (A5 x Rx). specialize (B5 y Ry).
    clear - A5 B5. destruct up; cbn [sharper negb] in *; qm; qlra.
  - (* or *)
    destruct t as [| | | | | | | | |n l r| | | |]; cbn [UntilTree.uready] in R; try contradiction. destruct R as (N1 & R1 & R2).
    destruct F as [F1 F2]. destruct C as [C1 C2]. destruct W as [W1 W2]. destruct RS as [RS1 RS2]. destruct UC as [U1 U2]. destruct ST as [S1 S2]. destruct GF as [G1 G2]. destruct BG as [B1' B2'].
    destruct (IHf1 s e l up F1 H0 H1 S1 C1 W1 RS1 U1 G1 GS GE B1' R1) as (v1 & l' & A1 & A3 & A4 & A5).
    destruct (IHf2 s e r up F2 H0 H1 S2 C2 W2 RS2 U2 G2 GS GE B2' R2) as (v2 & r' & B1 & B3 & B4 & B5).
    destruct (jfront_or s v1 v2 _ _ A3 B3) as (z & Z1 & ZB & Z3 & Z4). pose proof (proj1 (proj2 Z4)) as ZL.
    assert (ZS : beginTime z = s) by (rewrite ZB; cbn [compute_not beginTime]; rewrite A4, B4; apply TreeRob.qmax_same).
    destruct (jfront_cut s _ z (endTime z) (if up then TOP M else BOTTOM M) Z4 ZS ZL (Qcle_refl _)) as (z' & Y1 & Y2 & Y3 & _).
    cbn [compute_bound]. rewrite A1. cbn [bind]. rewrite B1. cbn [bind]. fold (zb up l') (zb up r'). rewrite Z1. cbn [bind].
    assert (EE : (if up then smin (endTime (zb up l')) (endTime (zb up r')) else endTime z) = endTime z).
    { destruct up; [|reflexivity]. rewrite smin_qmin. auto. }
    rewrite EE, N1, Y1. cbn [bind]. rewrite (front_fill E _ _ _ _ _ Y2). cbn [bind]. rewrite (jfront_front _ _ _ Y2). cbn [bind].
    do 2 eexists. split; [reflexivity|].
    split; [destruct up; exact Y2|]. split; [destruct up; exact Y3|]. intros v' (x & y & Rx & Ry & ->). specialize (A5 x Rx). specialize (B5 y Ry).
    clear - A5 B5. destruct up; cbn [sharper negb] in *; qm; qlra.
  - (* implies *)
    destruct t as [| | | | | | | | | |n l r| | |]; cbn [UntilTree.uready] in R; try contradiction. destruct R as (N1 & R1 & R2).
    destruct F as [F1 F2]. destruct C as [C1 C2]. destruct W as [W1 W2]. destruct RS as [RS1 RS2]. destruct UC as [U1 U2]. destruct ST as [S1 S2]. destruct GF as [G1 G2]. destruct BG as [B1' B2'].
    destruct (IHf1 s e l (negb up) F1 H0 H1 S1 C1 W1 RS1 U1 G1 GS GE B1' R1) as (v1 & l' & A1 & A3 & A4 & A5).
    destruct (IHf2 s e r up F2 H0 H1 S2 C2 W2 RS2 U2 G2 GS GE B2' R2) as (v2 & r' & B1 & B3 & B4 & B5).
    destruct (jfront_or s (- v1) v2 _ _ (jfront_not _ _ _ A3) B3) as (z & Z1 & ZB & Z3 & Z4). pose proof (proj1 (proj2 Z4)) as ZL.
    assert (ZS : beginTime z = s) by (rewrite ZB; cbn [compute_not beginTime]; rewrite A4, B4; apply TreeRob.qmax_same).
    destruct (jfront_cut s _ z (endTime z) (if up then TOP M else BOTTOM M) Z4 ZS ZL (Qcle_refl _)) as (z' & Y1 & Y2 & Y3 & _).
    cbn [compute_bound]. rewrite A1. cbn [bind]. rewrite B1. cbn [bind]. fold (zb up r').
    assert (ZN : (if up then tlow l' else tup l') = zb (negb up) l') by (destruct up; reflexivity). rewrite ZN. rewrite Z1. cbn [bind].
    assert (EE : (if up then smin (endTime (compute_not (zb (negb up) l'))) (endTime (zb up r')) else endTime z) = endTime z).
    { destruct up; [|reflexivity]. rewrite smin_qmin. auto. }
    rewrite EE, N1, Y1. cbn [bind]. rewrite (front_fill E _ _ _ _ _ Y2). cbn [bind]. rewrite (jfront_front _ _ _ Y2). cbn [bind].
    do 2 eexists. split; [reflexivity|].
    split; [destruct up; exact Y2|]. split; [destruct up; exact Y3|]. intros v' (x & y & Rx & Ry & ->). specialize (A5 x Rx). specialize (B5 y Ry).
    clear - A5 B5. destruct up; cbn [sharper negb] in *; qm; qlra.
  - (* until *)
    destruct t as [| | | | | | | | | | | | |n l i' r]; cbn [UntilTree.uready] in R; try contradiction. destruct R as (-> & N1 & N2 & R1 & R2).
    destruct F as (-> & F1 & F2 & F3 & F4). destruct C as [C1 C2]. destruct W as [W1 W2].
    destruct RS as [RS1 RS2]. destruct UC as [U1 U2]. destruct ST as [S1 S2]. destruct GF as (Ga & Gb & G1 & G2).
    set (a := val (ibegin i)) in *. set (b := val (iend i)) in *.
    assert (GSA : on_grid d (s + a)) by (apply grid_add; auto).
    assert (GEB : on_grid d (e + b)) by (apply grid_add; auto).
    cbn [begun] in BG. fold a b in BG.
    set (k1 := kend val T false f1 s (e + b)) in *. set (k2 := kend val T false f2 (s + a) (e + b)) in *.
    destruct BG as [BG1 BG2].
    assert (BK : s + a < k1 /\ s + a < k2) by (clear - BG1; qm; split; qlra). destruct BK as [BK1 BK2].
    assert (W1' : within cst D' M f1) by (eapply within_le; [|exact W1]; qlra). assert (W2' : within cst D' M f2) by (eapply within_le; [|exact W2]; qlra).
    assert (WD1 : within cst D M f1) by (eapply extends_within; eauto). assert (WD2 : within cst D M f2) by (eapply extends_within; eauto).
    assert (Wm1 : within cst D m f1) by (destruct X as (_ & _ & _ & _ & more & X3); destruct U' as (_ & _ & U3); rewrite X3 in *; eapply within_prefix; eauto).
    assert (Wm2 : within cst D m f2) by (destruct X as (_ & _ & _ & _ & more & X3); destruct U' as (_ & _ & U3); rewrite X3 in *; eapply within_prefix; eauto).
    destruct (bound_afrag f1 s (e + b) l false) as (v1 & l' & g1 & A1 & A2 & [P1 P2 P3 P4 P5 P6 P7] & A4); auto; try qlra.
    destruct (bound_afrag f2 (s + a) (e + b) r false) as (v2 & r' & g2 & B1 & B2 & [Q1 Q2 Q3 Q4 Q5 Q6 Q7] & B4); auto; try qlra.
    fold k1 in P2, P4. fold k2 in Q2, Q4.
    assert (IN1 : forall u, s <= u -> u <= k1 -> - m <= g1 u /\ g1 u <= m).
    { intros u V1 V2. apply (ib_known cst val w D M m f1 false s (e + b) u); auto; fold k1; try qlra. }
    assert (IN2 : forall u, s + a <= u -> u <= k2 -> - m <= g2 u /\ g2 u <= m).
    { intros u V1 V2. apply (ib_known cst val w D M m f2 false (s + a) (e + b) u); auto; fold k2; try qlra. }
    assert (NV1 : neqb v1 (BOTTOM M) = false).
    { apply neqb_false. change (BOTTOM M) with (- M). destruct (IN1 s); try qlra. rewrite <- A4 in *. intro Z. rewrite Z in *. qlra. }
    assert (NV2 : neqb v2 (BOTTOM M) = false).
    { apply neqb_false. change (BOTTOM M) with (- M). destruct (IN2 (s + a)); try qlra. rewrite <- B4 in *. intro Z. rewrite Z in *. qlra. }
    destruct (timed_front M (nlow n) g1 g2 (zb false l') (zb false r') a b) as (z & v & Z1 & Z2 & Z3 & Z4 & Z5); auto; rewrite ?P1, ?P2, ?Q1, ?Q2; auto.
    { intros u V1 V2. destruct (IN1 u V1 V2). split; qlra. }
    { intros u V1 V2. destruct (IN2 u V1 V2). qlra. }
    { destruct BG2 as [L|L]; auto. }
    rewrite P1 in Z2, Z4, Z5. rewrite P2, Q2 in Z3, Z5. set (k := qmin k1 k2) in *.
    cbn [compute_bound]. fold a b. rewrite A1. cbn [bind]. rewrite NV1. rewrite B1. cbn [bind]. rewrite NV2.
    change (tlow l') with (zb false l'). change (tlow r') with (zb false r'). rewrite Z1. cbn [bind].
    set (et := smax (start_time n) (smin (endTime z) (end_time n))).
    assert (K : s <= et /\ et <= endTime z).
    { unfold et. rewrite N1, N2, smin_qmin, Z3. unfold smax. qcase; qm; split; qlra. }
    destruct K as [K1 K2].
    destruct (jfront_cut s v z et n0 Z4 Z2 K1 K2) as (z' & Y1 & Y2 & Y3 & _).
    rewrite N1, Y1. cbn [bind]. rewrite (front_nonempty _ _ _ Y2), (jfront_front _ _ _ Y2). cbn [bind].
    do 2 eexists. split; [reflexivity|]. split; [exact Y2|]. split; [exact Y3|].
    intros v' (gl & gr & h' & RL & RR & RH & [RS' _]). cbn [sharper]. fold a b in RL, RR, RH, RS'.
    destruct Z5 as (h & HI & [_ SUP]). apply SUP. intros u V1 V2.
    assert (UK : u <= s + b /\ u <= k1 /\ u <= k2) by (clear - V2; unfold k in V2; qm; repeat split; qlra). destruct UK as (UB & UK1 & UK2).
    eapply Qcle_trans; [|exact (RS' u V1 UB)].
    assert (L2 : g2 u <= gr u).
    { assert (I1 : ib cst val D M false f2 (s + a) (e + b) u (g2 u)) by (apply Q4; qlra).
      assert (I2 : rob cst val D' f2 u (gr u)) by (apply RR; qlra).
      apply (later_ib f2 false (s + a) (e + b) u); auto; fold k2; qlra. }
    assert (L1 : h u <= h' u).
    { apply (RH u V1 UB). intros r0 R01 R02.
      assert (UK : u <= k) by (unfold k; clear - UK1 UK2; qm; qlra). destruct (HI u ltac:(qlra) UK) as [HU _].
      eapply Qcle_trans; [exact (HU r0 R01 R02)|].
      assert (I1 : ib cst val D M false f1 s (e + b) r0 (g1 r0)) by (apply P4; qlra).
      assert (I2 : rob cst val D' f1 r0 (gl r0)) by (apply RL; qlra).
      apply (later_ib f1 false s (e + b) r0); auto; fold k1; qlra. }
    clear - L1 L2. qm; qlra.
Qed.
End Grid.

Lemma online_until : forall t f d m s e r lo up b, stands_for t f -> sided val w b f -> 0 <= s -> s <= e -> started val T f s ->
  m < M -> within cst D' m f -> 0 <= M -> regular cst val D f s e -> uncut val T f s e -> grid_ok d f s e E ->
  begun val T b f s e -> covers val T' f e -> numbers (evaluate E t s e) = Ok (r, lo, up) ->
  forall v, rob cst val D' f s v -> if b then v <= up else lo <= v.
Proof.
  intros t f d m s e r lo up b SF F H0 H1 ST Lm W HM RS UC (G1 & G2 & G3 & G4 & G5) BG C N v R.
  rewrite (evaluate_skel E t (build f) s e SF) in N. apply numbers_ok in N. destruct N as (t1 & t2 & t3 & N1 & N2 & N3).
  assert (W' : within cst D' M f) by (eapply within_le; [|exact W]; qlra).
  assert (WD : within cst D M f) by (eapply extends_within; eauto).
  pose proof (sided_ufrag val w f b F) as FU.
  pose proof (online_ready f s e r t1 FU H0 H1 ST WD RS UC N1) as R1.
  destruct b.
  - pose proof (online_keeps d m G1 G5 HM Lm f s e t1 false lo t2 FU H0 H1 ST WD RS UC G2 G3 G4 R1 N2) as R2.
    destruct (online_bound d m G1 G5 HM Lm f s e t2 true) as (v1 & t' & A1 & _ & _ & A2); auto.
    rewrite A1 in N3. injection N3 as <- <-. apply A2. exact R.
  - destruct (online_bound d m G1 G5 HM Lm f s e t1 false) as (v1 & t' & A1 & _ & _ & A2); auto.
    rewrite A1 in N2. injection N2 as <- <-. apply A2. exact R.
Qed.
End Online.
