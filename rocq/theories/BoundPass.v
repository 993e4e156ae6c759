(** The interval passes compute the interval semantics. *)
From Coq Require Import List QArith Qcanon Bool String Lia.
From Verif Require Import Num Base Signal QcTac Spec Robust Repr AndProof NegProof SimplifyProof Lip Closed SigProof ResizeProof EvProof PlateauProof BoundedProof TimedProof Transducer StlSpec TreeProof ReadProof AtomProof ExprPass NodeProof TreeRob BoundProof Interval.
Import ListNotations.
Local Open Scope Qc_scope.

Section BPass.
Variable E : env Qc.
Variable w : nat.
Hypothesis LIN : e_ip E = LINEAR.
Hypothesis SPC : e_sem E = SPACE.
Hypothesis TR : trace w (e_data E).
Hypothesis MP : 0 <= e_M E.

Notation T := (last_time (e_data E)).
Notation val := (bound_value E).
Notation cst := (eff E).
Notation D := (e_data E).
Notation M := (e_M E).
Notation Rob := (rob cst val D).
Notation kend := (kend val T).
Notation ib := (ib cst val D M).

Record bsig (up : bool) (f : fml Qc) (s e : Qc) (B : Qc -> Prop) (z : signal Qc) (g : Qc -> Qc) : Prop := {
  bs_begin : B (beginTime z);
  bs_end : endTime z = kend up f s e;
  bs_rep : crepQ (fun u v => g u = v) z;
  bs_val : forall u, s <= u -> u <= kend up f s e -> ib up f s e u (g u);
  bs_flat : forall u, beginTime z <= u -> u <= s -> g u = g s;
  bs_in : In s (map time (samples z));
  bs_late : forall lo t, settled cst val D f lo e -> s <= t -> t <= lo -> t < kend up f s e -> late g z t
}.

Lemma bsig_within : forall up f s e (B : Qc -> Prop) z g, afrag val w f -> s <= e -> started val T f s -> within cst D M f ->
  (forall x, B x -> x <= s) -> bsig up f s e B z g -> forall u, beginTime z <= u -> u <= endTime z -> - M <= g u /\ g u <= M.
Proof.
  intros up f s e B z g F H ST W HB [B1 B2 B3 B4 B5 B6 B7] u U1 U2. rewrite B2 in U2.
  pose proof (kend_bounds val w T f up s e F H ST) as [K1 K2].
  destruct (Qclt_le_dec u s) as [C|C].
  - rewrite B5 by qlra. apply (ib_within cst val w D M f up s e s); auto. apply Qcle_refl. apply B4; auto. apply Qcle_refl.
  - apply (ib_within cst val w D M f up s e u); auto.
Qed.

Lemma front_in : forall g z, crepQ (fun u v => g u = v) z -> In (beginTime z) (map time (samples z)).
Proof.
  intros g z R. destruct (crepQ_front _ _ R) as (p & l & S1 & S2 & _). rewrite S1. left. exact S2.
Qed.

(** A node whose signal starts at [s]. *)
Lemma bsig_start : forall up f s e (B : Qc -> Prop) z g, B s -> beginTime z = s -> endTime z = kend up f s e ->
  crepQ (fun u v => g u = v) z -> (forall u, s <= u -> u <= kend up f s e -> ib up f s e u (g u)) ->
  (forall lo t, settled cst val D f lo e -> s <= t -> t <= lo -> t < kend up f s e -> late g z t) ->
  bsig up f s e B z g.
Proof.
  intros up f s e B z g HB H1 H2 H3 H4 H5. split; auto.
  - congruence.
  - intros u U1 U2. rewrite H1 in U1. f_equal. apply Qcle_antisym; auto.
  - rewrite <- H1. eapply front_in; eauto.
Qed.

Lemma neps_pos : 0 < neps.
Proof. reflexivity. Qed.

Lemma append_empty : forall s v, appendSample LINEAR (@empty_signal Qc _) s v = Ok (mkSig [mkS s v n0] s s).
Proof. intros s v. rewrite append_first by reflexivity. reflexivity. Qed.

Lemma fill_some : forall g z s v, crepQ (fun u v => g u = v) z -> fill_empty (e_ip E) z s v = Ok z.
Proof.
  intros g z s v [N _]. unfold fill_empty, is_empty. destruct (samples z); [congruence|reflexivity].
Qed.

Definition bfin (strict : bool) (z0 : signal Qc) (a b s e df : Qc) : res (signal Qc) :=
  z' <- (if strict then resize z0 s (smin (nadd (nsub (endTime z0) b) a) e) n0
         else resize z0 s (smax s (smin (endTime z0) e)) n0) ;;
  fill_empty (e_ip E) z' s df.

(** One timed operator. *)
Lemma timed_bound : forall (ev up : bool) self i c s e x g (B BP : Qc -> Prop),
  let f := if ev then FEv i c else FAlw i c in
  let a := val (ibegin i) in let b := val (iend i) in
  afrag val w f -> 0 <= s -> s <= e -> started val T f s -> within cst D M f -> regular cst val D f s e ->
  clear val T up f s e -> BP s ->
  (forall y, B y -> y = s + a \/ (y <= s + a /\ y + b <= e)) ->
  bsig up c (s + a) (e + b) B x g ->
  exists z0 z h, timed ev M self x a b = Ok z0 /\ bfin (Bool.eqb ev up) z0 a b s e (if up then TOP M else BOTTOM M) = Ok z /\
    bsig up f s e BP z h /\ nltb (endTime x) a = false.
Proof.
  intros ev up self i c s e x g B BP f a b F H0 H ST W RS G HBP HB X.
  assert (F' : 0 <= a /\ a <= b /\ afrag val w c) by (destruct ev; exact F). destruct F' as (F1 & F2 & F3).
  assert (ST' : started val T c (s + a)) by (destruct ev; exact ST).
  assert (W' : within cst D M c) by (destruct ev; exact W).
  assert (RS' : a < b -> s < e -> settled cst val D c (s + b) (e + b)) by (destruct ev; exact (proj1 RS)).
  assert (HE : s + a <= e + b) by qlra.
  assert (LB : forall y, B y -> y <= s + a). { intros y Y. destruct (HB y Y) as [->|[]]; auto. apply Qcle_refl. }
  pose proof (bsig_within up c (s + a) (e + b) B x g F3 HE ST' W' LB X) as WX.
  pose proof (kend_bounds val w T c up (s + a) (e + b) F3 HE ST') as [K1 K2].
  assert (GK : Bool.eqb ev up = true -> kend up c (s + a) (e + b) - b < s -> kend up c (s + a) (e + b) - b < s - neps)
    by (destruct ev, up; intros EU; try discriminate EU; apply (proj1 G); reflexivity).
  assert (KF : kend up f s e = kwin (Bool.eqb ev up) a b s e (kend up c (s + a) (e + b))) by (destruct ev, up; reflexivity).
  assert (IBF : forall u v, ib up f s e u v <->
    (Bool.eqb ev up = true /\ kend up c (s + a) (e + b) - b < s /\ v = (if up then M else - M)) \/
    ((Bool.eqb ev up = true -> s <= kend up c (s + a) (e + b) - b) /\
     exists g, (forall u', u + a <= u' -> u' <= qmin (u + b) (kend up c (s + a) (e + b)) -> ib up c (s + a) (e + b) u' (g u')) /\
               is_ext ev g (u + a) (qmin (u + b) (kend up c (s + a) (e + b))) v)).
  { intros u v. destruct ev, up; cbn [Bool.eqb]; (split; [intros [(P1 & P2 & P3)|(P1 & P2)]|intros [(P1 & P2 & P3)|(P1 & P2)]]);
      try discriminate; try (left; split; [reflexivity|]; split; assumption); try (right; split; [intro; try discriminate; auto|exact P2]). }
  assert (SF : forall lo, settled cst val D f lo e -> (a = b /\ settled cst val D c (lo + a) (e + b)) \/ (covers val T f e /\ no_ramp cst val D f lo e))
    by (intros lo S; destruct ev; exact S).
  assert (CV : covers val T f e -> covers val T c (e + b)) by (destruct ev; auto).
  destruct X as [X1 X2 X3 X4 X5 X6 X7].
  remember (kend up c (s + a) (e + b)) as k eqn:Hk.
  assert (LF : late_for g x (b - a)).
  { intros D1 D2. rewrite X2 in D2. destruct (HB _ X1) as [BX|[BX1 BX2]].
    - assert (SE : s < e) by qlra. apply X7 with (lo := s + b); rewrite ?BX; try qlra. apply RS'; qlra.
    - destruct (Qclt_le_dec (s + a) (beginTime x + (b - a))) as [D3|D3].
      + apply X7 with (lo := s + b); try qlra. apply RS'; qlra.
      + left. apply in_map_iff in X6. destruct X6 as (q & Tq & Iq). exists q. split; auto. rewrite Tq. auto. }
  assert (NA : nltb (endTime x) a = false) by (apply nltb_false; rewrite X2; qlra).
  assert (WIN : forall t, s <= t -> t <= k - a -> exists z0 z h, timed ev M self x a b = Ok z0 /\ endTime z0 = k - a /\ resize z0 s t n0 = Ok z /\
    beginTime z = s /\ endTime z = t /\ crepQ (fun u v => h u = v) z /\
    (forall u, s <= u -> u <= t -> is_ext ev g (u + a) (qmin (u + b) k) (h u)) /\
    (a = b -> forall q, In q (samples x) -> s + a <= time q -> time q <= t + a ->
       exists q', In q' (samples z) /\ time q' = time q - a)).
  { intros t T1 T2. destruct (window_q ev M self g x a b s t n0) as (z0 & z & h & A1 & A2 & A3 & A4 & A5 & A6 & A7 & _ & A9); auto; rewrite ?X2 in *; try qlra.
    exists z0, z, h. auto 10. }
  (* the generic case *)
  assert (GEN : kend up f s e <= k - a -> (Bool.eqb ev up = true -> s <= k - b) -> s <= kend up f s e -> exists z0 z h, timed ev M self x a b = Ok z0 /\ endTime z0 = k - a /\
    resize z0 s (kend up f s e) n0 = Ok z /\ bsig up f s e BP z h).
  { intros L1 L2 L3. destruct (WIN (kend up f s e) L3 L1) as (z0 & z & h & A1 & A2 & A3 & A4 & A5 & A6 & A7 & A9).
    exists z0, z, h. split; [exact A1|]. split; [exact A2|]. split; [exact A3|].
    assert (V : forall u, s <= u -> u <= kend up f s e -> ib up f s e u (h u)).
    { intros u U1 U2. apply IBF. right. split; [exact L2|]. exists g. split; [|apply A7; auto].
      intros u' V1 V2. apply X4; [qlra|]. qm; qlra. }
    apply bsig_start; auto. intros lo t S T1 T2 T3. destruct (SF lo S) as [[AB S']|[C NR]].
    - destruct (X7 _ (t + a) S') as [(q & I & Tq)|CC]; try qlra.
      + left. destruct (Qclt_le_dec (kend up f s e + a) (time q)) as [BIG|SMALL].
        * (* the sample is beyond the end: *) exfalso.
          (* kend = qmin (k - a) e, and k <= e + b = e + a *)
          rewrite KF in BIG. unfold kwin in BIG.
          assert (TQ : time q <= k). { pose proof (crep_times _ _ X3) as TT. rewrite Forall_forall in TT. rewrite <- X2. apply TT; auto. }
          destruct (Bool.eqb ev up); [destruct (Qclt_le_dec (k - b) s)|]; qm; qlra.
        * destruct (A9 AB q I) as (q' & I' & Tq'); try qlra. exists q'. split; auto. rewrite Tq'. qlra.
      + right. rewrite A5. intros u U1 U2.
        assert (P : forall u, s <= u -> u <= kend up f s e -> h u = g (u + a)).
        { intros u' V1 V2. specialize (A7 u' V1 V2). rewrite qmin_l in A7 by qlra. rewrite <- AB in A7.
          eapply is_ext_unique; [exact A7|]. destruct ev; (split; [intros y Y1 Y2; assert (Y : y = u' + a) by (apply Qcle_antisym; auto); rewrite Y; apply Qcle_refl|intros y Y; apply Y; apply Qcle_refl]). }
        rewrite !P by qlra. apply CC; [qlra|rewrite X2; qlra].
    - assert (KE : kend up f s e = e) by (apply (kend_full val w); auto).
      rewrite KE in *.
      eapply (ramp_late E w TR f s e z h lo t); eauto.
      intros u U1 U2. apply (ib_full cst val w D M f up s e u); auto. }
  destruct (Bool.eqb ev up) eqn:EU.
  - destruct (Qclt_le_dec (k - b) s) as [C|C].
    + destruct (WIN s (Qcle_refl s) ltac:(qlra)) as (z0 & z & h & A1 & A2 & _).
      exists z0, (mkSig [mkS s (if up then M else - M) n0] s s), (fun _ => if up then M else - M). split; [exact A1|].
      assert (KS : kend up f s e = s). { rewrite KF. unfold kwin. destruct (Qclt_le_dec (k - b) s); auto. exfalso. qlra. }
      split.
      { unfold bfin. rewrite smin_qmin, A2.
        assert (ET : qmin (nadd (nsub (k - a) b) a) e = k - b).
        { change (nadd (nsub (k - a) b) a) with (k - a - b + a). replace (k - a - b + a) with (k - b) by ring. apply qmin_l. qlra. }
        rewrite ET. unfold resize.
        assert (EM : nltb (k - b) (nsub s neps) = true).
        { apply nltb_true. change (k - b < s - neps). auto. }
        rewrite EM. cbn [bind]. unfold fill_empty. cbn [is_empty empty_signal samples]. rewrite LIN.
        replace (if up then TOP M else BOTTOM M) with (if up then M else - M) by (destruct up; reflexivity).
        apply append_empty. }
      split; [|exact NA]. apply bsig_start; auto.
      * split; [discriminate|]. cbn [samples beginTime endTime]. eapply prep_cons with (t' := s); auto; [apply Qcle_refl| |constructor].
        intros u _ _. change n0 with 0. rewrite line0. reflexivity.
      * intros u U1 U2. rewrite KS in U2. apply IBF. left. auto.
      * intros lo t S T1 T2 T3. rewrite KS in T3. exfalso. qlra.
    + assert (KE : kend up f s e = qmin (k - b) e). { rewrite KF. unfold kwin. destruct (Qclt_le_dec (k - b) s); auto. exfalso. qlra. }
      destruct GEN as (z0 & z & h & A1 & A2 & A3 & A4); auto; try (rewrite KE; qm; qlra).
      exists z0, z, h. split; [exact A1|]. split; [|split; [exact A4|exact NA]].
      unfold bfin. rewrite smin_qmin, A2.
      change (nadd (nsub (k - a) b) a) with (k - a - b + a). replace (k - a - b + a) with (k - b) by ring.
      rewrite <- KE, A3. cbn [bind]. eapply fill_some. apply A4.
  - assert (KE : kend up f s e = qmin (k - a) e) by (rewrite KF; reflexivity).
    destruct GEN as (z0 & z & h & A1 & A2 & A3 & A4); auto; try discriminate; try (rewrite KE; qm; qlra).
    exists z0, z, h. split; [exact A1|]. split; [|split; [exact A4|exact NA]].
    unfold bfin. rewrite smin_qmin, A2, <- KE. rewrite smax_r by (rewrite KE; qm; qlra).
    rewrite A3. cbn [bind]. eapply fill_some. apply A4.
Qed.


Lemma same_domain : forall g z s k v, crepQ (fun u v => g u = v) z -> beginTime z = s -> endTime z = k -> s <= k -> ends z ->
  exists z', resize z s k v = Ok z' /\ beginTime z' = s /\ endTime z' = k /\ crepQ (fun u v => g u = v) z' /\ ends z'.
Proof.
  intros g z s k v R H1 H2 H3 (q & I & Tq).
  destruct (resize_q _ z s k v R) as (z' & Z1 & Z2 & Z3 & Z4 & _ & Z6); try qlra.
  { left. exists q. split; auto. rewrite Tq, H2. auto. }
  exists z'. split; [exact Z1|]. split; [exact Z2|]. split; [exact Z3|]. split; [exact Z4|].
  exists q. rewrite H2 in Tq. split; [apply Z6; auto; rewrite Tq; auto; apply Qcle_refl|congruence].
Qed.

Definition zb (up : bool) (t : tree Qc) : signal Qc := if up then tup t else tlow t.

Lemma bool_node : forall up s e k df (BP : Qc -> Prop) f g z,
  BP s -> s <= k -> kend up f s e = k -> beginTime z = s -> endTime z = k -> crepQ (fun u v => g u = v) z -> ends z ->
  (forall u, s <= u -> u <= k -> ib up f s e u (g u)) ->
  exists z', resize z s k df = Ok z' /\ fill_empty (e_ip E) z' s df = Ok z' /\ front_value z' = Ok (g s) /\ bsig up f s e BP z' g.
Proof.
  intros up s e k df BP f g z HB H K Z1 Z2 Z3 Z4 V. destruct (same_domain g z s k df Z3 Z1 Z2 H Z4) as (z' & Y1 & Y2 & Y3 & Y4 & Y5).
  exists z'. split; [exact Y1|]. split; [eapply fill_some; exact Y4|]. split; [rewrite (front_crep _ _ Y4), Y2; reflexivity|].
  apply bsig_start; auto.
  - rewrite K. exact Y3.
  - rewrite K. exact V.
  - intros lo t S T1 T2 T3. apply ends_late; auto. rewrite Y3. rewrite K in T3. qlra.
Qed.

Lemma bound_pass : forall f s e (B : Qc -> Prop) t up, afrag val w f -> 0 <= s -> s <= e -> started val T f s ->
  within cst D M f -> regular cst val D f s e -> clear val T up f s e ->
  B s -> (forall x, B x -> x <= s) -> ready E w f s e B t ->
  exists v t' g, compute_bound E up t = Ok (v, t') /\ ready E w f s e B t' /\ bsig up f s e B (zb up t') g /\ v = g s.
Proof.
  induction f; intros s e B t up F H0 H1 ST W RS G HB LB R; cbn [afrag] in F; try contradiction.
  - (* atom *)
    destruct t as [| | | | | |n tl op' tr| | | | | | |]; cbn [ready] in R; try contradiction. destruct R as (-> & AS & K).
    destruct F as ((Sl & Sr) & _). cbn [started] in ST.
    destruct (atom_pass2 E w TR SPC op s e n tl tr AS) as (p & q & tl' & tr' & S1 & C1 & AS').
    cbn [compute_bound]. rewrite C1. cbn [bind]. unfold default_bound. cbn [snd node].
    destruct AS as [A1 A2 A4 _]. pose proof K as (K1 & K2 & K3 & K4).
    assert (NT : nltb (endTime (nz n)) (start_time n) = false) by (apply nltb_false; rewrite A1, A4; qm; qlra).
    rewrite NT. rewrite (front_crep (fun u => xdiff E f1 op f2 (qmax u s)) _ K2). cbn [bind].
    do 2 eexists. exists (fun u => xdiff E f1 op f2 (qmax u s)). split; [reflexivity|].
    pose proof (LB _ K1) as L1.
    split; [|split].
    + destruct up; cbn [set_node ready with_up with_low nz]; (split; [reflexivity|]); (split; [destruct AS'; split; auto|exact K]).
    + assert (ZB : zb up (set_node (TAtom n tl' op tr') (if up then with_up n (nz n) else with_low n (nz n))) = nz n) by (destruct up; reflexivity).
      rewrite ZB. split; auto.
      * intros u U1 U2. cbn [Interval.ib]. apply (atom_rob E w TR); auto. rewrite qmax_l by auto. reflexivity.
      * intros u U1 U2. rewrite !qmax_r by qlra. reflexivity.
      * intros lo t0 S T1 T2 T3. eapply (atom_late E w TR); eauto. split; auto.
    + rewrite qmax_r by auto. rewrite qmax_same. reflexivity.
  - (* not *)
    destruct t as [| | | | | | |n c| | | | | |]; cbn [ready] in R; try contradiction.
    destruct (IHf s e (fun x => x = s) c (negb up) F H0 H1 ST W RS G eq_refl) as (v & c' & g & C1 & C2 & [B1 B2 B3 B4 B5 B6 B7] & C3); auto.
    { intros x ->. apply Qcle_refl. }
    cbn [compute_bound]. rewrite C1. cbn [bind].
    assert (ZN : (if up then tlow c' else tup c') = zb (negb up) c') by (destruct up; reflexivity). rewrite ZN.
    assert (NE : is_empty (zb (negb up) c') = false).
    { destruct B3 as [N _]. unfold is_empty. destruct (samples (zb (negb up) c')); [congruence|reflexivity]. }
    rewrite NE. pose proof (crep_neg_fn _ _ B3) as R'. rewrite (front_crep (fun u => - g u) _ R'). cbn [bind].
    do 2 eexists. exists (fun u => - g u). split; [reflexivity|]. split; [destruct up; exact C2|].
    split; [|cbn [compute_not beginTime]; rewrite B1; reflexivity].
    assert (ZB : zb up (TNot (if up then with_up n (compute_not (zb (negb up) c')) else with_low n (compute_not (zb (negb up) c'))) c') = compute_not (zb (negb up) c')) by (destruct up; reflexivity).
    rewrite ZB. apply bsig_start; auto.
    + intros u U1 U2. cbn [Interval.ib]. eexists. split; [apply B4; auto|reflexivity].
    + intros lo t0 S T1 T2 T3. apply late_cnot. eapply B7; eauto.
  - (* and *)
    destruct t as [| | | | | | | |n l r| | | | |]; cbn [ready] in R; try contradiction. destruct R as (N1 & R1 & R2).
    destruct F as [F1 F2]. destruct ST as [ST1 ST2]. destruct W as [W1 W2]. destruct RS as [RS1 RS2]. destruct G as [G1 G2].
    destruct (IHf1 s e (fun x => x = s) l up F1 H0 H1 ST1 W1 RS1 G1 eq_refl) as (vl & l' & gl & C1 & C2 & [B1 B2 B3 B4 _ _ _] & _); auto.
    { intros x ->. apply Qcle_refl. }
    destruct (IHf2 s e (fun x => x = s) r up F2 H0 H1 ST2 W2 RS2 G2 eq_refl) as (vr & r' & gr & C1' & C2' & [B1' B2' B3' B4' _ _ _] & _); auto.
    { intros x ->. apply Qcle_refl. }
    pose proof (kend_bounds val w T f1 up s e F1 H1 ST1) as [K1 K2]. pose proof (kend_bounds val w T f2 up s e F2 H1 ST2) as [K1' K2'].
    destruct (compute_and_q (zb up l') (zb up r') _ _ (fun u v => qmin (gl u) (gr u) = v) B3 B3') as (z & Z1 & [Z2 Z3 Z4 Z5 Z6]).
    { rewrite B1, B1', B2, B2', qmax_same. qm; qlra. }
    { intros u x y _ _ <- <-. reflexivity. }
    rewrite B1, B1', qmax_same in Z2. rewrite B2, B2' in Z3.
    destruct (bool_node up s e (kend up (FAnd f1 f2) s e) (if up then TOP M else BOTTOM M) B (FAnd f1 f2) (fun u => qmin (gl u) (gr u)) z)
      as (z' & Y1 & Y2 & Y3 & Y4); auto.
    { cbn [StlSpec.kend]. qm; qlra. }
    { intros u U1 U2. cbn [StlSpec.kend] in U2. cbn [Interval.ib]. do 2 eexists. split; [apply B4|split; [apply B4'|reflexivity]]; auto; qm; qlra. }
    cbn [compute_bound]. rewrite C1. cbn [bind]. rewrite C1'. cbn [bind]. fold (zb up l') (zb up r'). rewrite Z1. cbn [bind].
    assert (EE : (if up then endTime z else smin (endTime (zb up l')) (endTime (zb up r'))) = kend up (FAnd f1 f2) s e).
    { cbn [StlSpec.kend]. destruct up; [exact Z3|]. rewrite smin_qmin, B2, B2'. reflexivity. }
    rewrite EE, N1, Y1. cbn [bind]. rewrite Y2. cbn [bind]. rewrite Y3. cbn [bind].
    do 2 eexists. exists (fun u => qmin (gl u) (gr u)). split; [reflexivity|]. split; [|split; [|reflexivity]].
    + cbn [ready]. split; [destruct up; exact N1|]. split; auto.
    + destruct up; exact Y4.
  - (* or *)
    destruct t as [| | | | | | | | |n l r| | | |]; cbn [ready] in R; try contradiction. destruct R as (N1 & R1 & R2).
    destruct F as [F1 F2]. destruct ST as [ST1 ST2]. destruct W as [W1 W2]. destruct RS as [RS1 RS2]. destruct G as [G1 G2].
    destruct (IHf1 s e (fun x => x = s) l up F1 H0 H1 ST1 W1 RS1 G1 eq_refl) as (vl & l' & gl & C1 & C2 & [B1 B2 B3 B4 _ _ _] & _); auto.
    { intros x ->. apply Qcle_refl. }
    destruct (IHf2 s e (fun x => x = s) r up F2 H0 H1 ST2 W2 RS2 G2 eq_refl) as (vr & r' & gr & C1' & C2' & [B1' B2' B3' B4' _ _ _] & _); auto.
    { intros x ->. apply Qcle_refl. }
    pose proof (kend_bounds val w T f1 up s e F1 H1 ST1) as [K1 K2]. pose proof (kend_bounds val w T f2 up s e F2 H1 ST2) as [K1' K2'].
    destruct (compute_or_q (zb up l') (zb up r') _ _ (fun u v => qmax (gl u) (gr u) = v) B3 B3') as (z & Z1 & [Z2 Z3 Z4 Z5 Z6]).
    { rewrite B1, B1', B2, B2', qmax_same. qm; qlra. }
    { intros u x y _ _ <- <-. reflexivity. }
    rewrite B1, B1', qmax_same in Z2. rewrite B2, B2' in Z3.
    destruct (bool_node up s e (kend up (FOr f1 f2) s e) (if up then TOP M else BOTTOM M) B (FOr f1 f2) (fun u => qmax (gl u) (gr u)) z)
      as (z' & Y1 & Y2 & Y3 & Y4); auto.
    { cbn [StlSpec.kend]. qm; qlra. }
    { intros u U1 U2. cbn [StlSpec.kend] in U2. cbn [Interval.ib]. do 2 eexists. split; [apply B4|split; [apply B4'|reflexivity]]; auto; qm; qlra. }
    cbn [compute_bound]. rewrite C1. cbn [bind]. rewrite C1'. cbn [bind]. fold (zb up l') (zb up r'). rewrite Z1. cbn [bind].
    assert (EE : (if up then smin (endTime (zb up l')) (endTime (zb up r')) else endTime z) = kend up (FOr f1 f2) s e).
    { cbn [StlSpec.kend]. destruct up; [|exact Z3]. rewrite smin_qmin, B2, B2'. reflexivity. }
    rewrite EE, N1, Y1. cbn [bind]. rewrite Y2. cbn [bind]. rewrite Y3. cbn [bind].
    do 2 eexists. exists (fun u => qmax (gl u) (gr u)). split; [reflexivity|]. split; [|split; [|reflexivity]].
    + cbn [ready]. split; [destruct up; exact N1|]. split; auto.
    + destruct up; exact Y4.
  - (* implies *)
    destruct t as [| | | | | | | | | |n l r| | |]; cbn [ready] in R; try contradiction. destruct R as (N1 & R1 & R2).
    destruct F as [F1 F2]. destruct ST as [ST1 ST2]. destruct W as [W1 W2]. destruct RS as [RS1 RS2]. destruct G as [G1 G2].
    destruct (IHf1 s e (fun x => x = s) l (negb up) F1 H0 H1 ST1 W1 RS1 G1 eq_refl) as (vl & l' & gl & C1 & C2 & [B1 B2 B3 B4 _ _ _] & _); auto.
    { intros x ->. apply Qcle_refl. }
    destruct (IHf2 s e (fun x => x = s) r up F2 H0 H1 ST2 W2 RS2 G2 eq_refl) as (vr & r' & gr & C1' & C2' & [B1' B2' B3' B4' _ _ _] & _); auto.
    { intros x ->. apply Qcle_refl. }
    pose proof (kend_bounds val w T f1 (negb up) s e F1 H1 ST1) as [K1 K2]. pose proof (kend_bounds val w T f2 up s e F2 H1 ST2) as [K1' K2'].
    pose proof (crep_neg_fn _ _ B3) as RN.
    destruct (compute_or_q (compute_not (zb (negb up) l')) (zb up r') _ _ (fun u v => qmax (- gl u) (gr u) = v) RN B3') as (z & Z1 & [Z2 Z3 Z4 Z5 Z6]).
    { cbn [compute_not beginTime endTime]. rewrite B1, B1', B2, B2', qmax_same. qm; qlra. }
    { intros u x y _ _ <- <-. reflexivity. }
    cbn [compute_not beginTime endTime] in Z2, Z3.
    rewrite B1, B1', qmax_same in Z2. rewrite B2, B2' in Z3.
    destruct (bool_node up s e (kend up (FImp f1 f2) s e) (if up then TOP M else BOTTOM M) B (FImp f1 f2) (fun u => qmax (- gl u) (gr u)) z)
      as (z' & Y1 & Y2 & Y3 & Y4); auto.
    { cbn [StlSpec.kend]. qm; qlra. }
    { intros u U1 U2. cbn [StlSpec.kend] in U2. cbn [Interval.ib]. do 2 eexists. split; [apply B4|split; [apply B4'|reflexivity]]; auto; qm; qlra. }
    cbn [compute_bound]. rewrite C1. cbn [bind]. rewrite C1'. cbn [bind]. fold (zb up r').
    assert (ZN : (if up then tlow l' else tup l') = zb (negb up) l') by (destruct up; reflexivity). rewrite ZN. rewrite Z1. cbn [bind].
    assert (EE : (if up then smin (endTime (compute_not (zb (negb up) l'))) (endTime (zb up r')) else endTime z) = kend up (FImp f1 f2) s e).
    { cbn [StlSpec.kend]. destruct up; [|exact Z3]. cbn [compute_not endTime]. rewrite smin_qmin, B2, B2'. reflexivity. }
    rewrite EE, N1, Y1. cbn [bind]. rewrite Y2. cbn [bind]. rewrite Y3. cbn [bind].
    do 2 eexists. exists (fun u => qmax (- gl u) (gr u)). split; [reflexivity|]. split; [|split; [|reflexivity]].
    + cbn [ready]. split; [destruct up; exact N1|]. split; auto.
    + destruct up; exact Y4.
  - (* eventually *)
    destruct t as [| | | | | | | | | | |n i' c| |]; cbn [ready] in R; try contradiction. destruct R as (-> & N1 & N2 & R).
    pose proof F as (F1 & F2 & F3). pose proof G as (G1 & G2). pose proof RS as (RS1 & RS2).
    destruct (IHf (s + val (ibegin i)) (e + val (iend i)) (fun x => x = s + val (ibegin i) \/ (x <= s + val (ibegin i) /\ x + val (iend i) <= e)) c up)
      as (v & c' & g & C1 & C2 & C3 & _); auto; try qlra.
    { intros x [->|[]]; auto. apply Qcle_refl. }
    destruct (timed_bound true up (if up then nup n else nlow n) i f s e _ _ _ B F H0 H1 ST W RS G HB (fun y Y => Y) C3) as (z0 & z & h & Z1 & Z2 & Z3 & Z4).
    cbn [compute_bound]. rewrite C1. cbn [bind]. fold (zb up c'). rewrite Z4.
    unfold timed in Z1. rewrite Z1. cbn [bind].
    unfold bfin in Z2.
    assert (FR : front_value z = Ok (h s)).
    { pose proof (bs_rep _ _ _ _ _ _ _ Z3) as RR. rewrite (front_crep _ _ RR). f_equal.
      apply (bs_flat _ _ _ _ _ _ _ Z3); [apply Qcle_refl|]. apply LB. apply (bs_begin _ _ _ _ _ _ _ Z3). }
    rewrite N1, N2.
    destruct up; cbn [Bool.eqb] in Z2;
      match type of Z2 with bind ?m _ = _ => destruct m as [z1| | | |]; try discriminate Z2 end; cbn [bind] in Z2 |- *;
      rewrite Z2; cbn [bind]; rewrite FR; cbn [bind]; do 2 eexists; exists h; (split; [reflexivity|]); (split; [|split; [exact Z3|reflexivity]]);
      cbn [ready with_up with_low start_time end_time]; auto.
  - (* always *)
    destruct t as [| | | | | | | | | | | |n i' c|]; cbn [ready] in R; try contradiction. destruct R as (-> & N1 & N2 & R).
    pose proof F as (F1 & F2 & F3). pose proof G as (G1 & G2). pose proof RS as (RS1 & RS2).
    destruct (IHf (s + val (ibegin i)) (e + val (iend i)) (fun x => x = s + val (ibegin i)) c up)
      as (v & c' & g & C1 & C2 & C3 & _); auto; try qlra.
    destruct (timed_bound false up (if up then nup n else nlow n) i f s e _ _ _ B F H0 H1 ST W RS G HB (fun y Y => or_introl Y) C3) as (z0 & z & h & Z1 & Z2 & Z3 & Z4).
    cbn [compute_bound]. rewrite C1. cbn [bind]. fold (zb up c'). rewrite Z4.
    unfold timed in Z1. rewrite Z1. cbn [bind].
    unfold bfin in Z2.
    assert (FR : front_value z = Ok (h s)).
    { pose proof (bs_rep _ _ _ _ _ _ _ Z3) as RR. rewrite (front_crep _ _ RR). f_equal.
      apply (bs_flat _ _ _ _ _ _ _ Z3); [apply Qcle_refl|]. apply LB. apply (bs_begin _ _ _ _ _ _ _ Z3). }
    rewrite N1, N2.
    destruct up; cbn [Bool.eqb] in Z2;
      match type of Z2 with bind ?m _ = _ => destruct m as [z1| | | |]; try discriminate Z2 end; cbn [bind] in Z2 |- *;
      rewrite Z2; cbn [bind]; rewrite FR; cbn [bind]; do 2 eexists; exists h; (split; [reflexivity|]); (split; [|split; [exact Z3|reflexivity]]);
      cbn [ready with_up with_low start_time end_time]; auto.
Qed.

End BPass.
