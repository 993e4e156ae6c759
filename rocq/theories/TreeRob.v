(** The robustness pass over a whole formula, on data that covers its horizon. *)
From Coq Require Import List QArith Qcanon Bool String Lia.
From Verif Require Import Num Base Signal QcTac Spec Robust Repr NegProof SimplifyProof Lip Closed SigProof ResizeProof BoundedProof TimedProof Transducer StlSpec TreeProof ReadProof AtomProof ExprPass NodeProof.
Import ListNotations.
Local Open Scope Qc_scope.

Lemma qmax_same : forall a : Qc, qmax a a = a.
Proof. intros a. unfold qmax. destruct (Qclt_le_dec a a); reflexivity. Qed.
Lemma qmin_same : forall a : Qc, qmin a a = a.
Proof. intros a. unfold qmin. destruct (Qclt_le_dec a a); reflexivity. Qed.
Lemma qmin_l : forall a b : Qc, a <= b -> qmin a b = a.
Proof. intros a b H. destruct (qmin_cases a b) as [[-> ?]|[-> ?]]; auto. apply Qcle_antisym; auto. Qed.
Lemma qmin_r : forall a b : Qc, b <= a -> qmin a b = b.
Proof. intros a b H. destruct (qmin_cases a b) as [[-> ?]|[-> ?]]; auto. apply Qcle_antisym; auto. Qed.
Lemma smin_qmin : forall a b : Qc, smin a b = qmin a b.
Proof.
  intros a b. unfold smin. destruct (qmin_cases a b) as [[-> ?]|[-> ?]]; qcase; auto; try (apply Qcle_antisym; auto); qlra.
Qed.
Lemma smax_same : forall a : Qc, smax a a = a.
Proof. intros a. unfold smax. destruct (nltb a a); reflexivity. Qed.

Lemma smax_r : forall a b : Qc, a <= b -> smax a b = b.
Proof. intros a b H. unfold smax. qcase; auto. apply Qcle_antisym; auto. Qed.

Lemma with_end_same : forall x : signal Qc, with_end x (endTime x) = x.
Proof. destruct x; reflexivity. Qed.

Lemma front_crep : forall g z, crepQ (fun u v => g u = v) z -> front_value z = Ok (g (beginTime z)).
Proof.
  intros g z R. destruct (crepQ_front _ _ R) as (p & l & S1 & S2 & S3). unfold front_value. rewrite S1. cbn [deref bind].
  rewrite S3. reflexivity.
Qed.

Lemma late_cnot : forall g z s, late g z s -> late (fun u => - g u) (cnot z) s.
Proof.
  intros g z s [(q & I & H)|H].
  - left. exists (neg_sample q). split; [cbn [compute_not samples]; apply in_map; auto|exact H].
  - right. intros u U1 U2. rewrite H; auto.
Qed.

Lemma ends_late : forall g z s, ends z -> s <= endTime z -> late g z s.
Proof. intros g z s (q & I & H) D. left. exists q. split; auto. rewrite H. exact D. Qed.

Lemma crep_times : forall g z, crepQ (fun u v => g u = v) z -> Forall (fun q => time q <= endTime z) (samples z).
Proof. intros g z [_ P]. eapply prepQ_le_end; eauto. Qed.

(** ** The semantics is a function *)
Lemma is_sup_unique : forall f lo hi v w, is_sup f lo hi v -> is_sup f lo hi w -> v = w.
Proof. exact (is_ext_unique true). Qed.
Lemma is_inf_unique : forall f lo hi v w, is_inf f lo hi v -> is_inf f lo hi w -> v = w.
Proof. exact (is_ext_unique false). Qed.
Lemma is_inf_ext : forall f g lo hi v, (forall u, lo <= u -> u <= hi -> f u = g u) -> is_inf f lo hi v -> is_inf g lo hi v.
Proof. exact (is_ext_ext false). Qed.

Section Unique.
Variables (cst : option string -> Qc -> Qc) (val : bound Qc -> Qc) (data : list (list Qc)).
Hypothesis R : rising (column data 0).

Lemma column_rising : forall c, rising (column data c).
Proof. intros c. eapply rising_times; [|exact R]. rewrite !times_column. reflexivity. Qed.

Lemma operand_unique : forall f t v w, operand cst data f t v -> operand cst data f t w -> v = w.
Proof.
  destruct f; cbn [operand]; intros t v0 w H1 H2; try contradiction; [|congruence].
  exact (linear_unique _ _ _ _ (column_rising col) H1 H2).
Qed.

Lemma expr_unique : forall f t v w, expr cst data f t v -> expr cst data f t w -> v = w.
Proof.
  induction f; intros t x y H1 H2; cbn [expr] in *; try contradiction; try (eapply operand_unique; eassumption).
  - destruct H1 as (a & A & ->), H2 as (b & B & ->). rewrite (IHf _ _ _ A B). reflexivity.
  - destruct H1 as (a & b & A & B & ->), H2 as (c & d & C & D & ->). rewrite (IHf1 _ _ _ A C), (IHf2 _ _ _ B D). reflexivity.
  - destruct H1 as (a & b & A & B & ->), H2 as (c & d & C & D & ->). rewrite (IHf1 _ _ _ A C), (IHf2 _ _ _ B D). reflexivity.
  - destruct H1 as (a & b & A & B & ->), H2 as (c & d & C & D & ->). rewrite (IHf1 _ _ _ A C), (IHf2 _ _ _ B D). reflexivity.
Qed.

Lemma rob_unique : forall f t v w, rob cst val data f t v -> rob cst val data f t w -> v = w.
Proof.
  induction f; intros t x y H1 H2; cbn [rob] in *; try contradiction.
  - destruct op; destruct H1 as (a1 & b1 & A1 & B1 & ->); destruct H2 as (a2 & b2 & A2 & B2 & ->);
      rewrite (expr_unique _ _ _ _ A1 A2), (expr_unique _ _ _ _ B1 B2); reflexivity.
  - destruct H1 as (a1 & A1 & ->). destruct H2 as (a2 & A2 & ->). rewrite (IHf _ _ _ A1 A2). reflexivity.
  - destruct H1 as (a1 & b1 & A1 & B1 & ->). destruct H2 as (a2 & b2 & A2 & B2 & ->).
    rewrite (IHf1 _ _ _ A1 A2), (IHf2 _ _ _ B1 B2). reflexivity.
  - destruct H1 as (a1 & b1 & A1 & B1 & ->). destruct H2 as (a2 & b2 & A2 & B2 & ->).
    rewrite (IHf1 _ _ _ A1 A2), (IHf2 _ _ _ B1 B2). reflexivity.
  - destruct H1 as (a1 & b1 & A1 & B1 & ->). destruct H2 as (a2 & b2 & A2 & B2 & ->).
    rewrite (IHf1 _ _ _ A1 A2), (IHf2 _ _ _ B1 B2). reflexivity.
  - destruct H1 as (g1 & G1 & S1). destruct H2 as (g2 & G2 & S2). eapply is_sup_unique; [exact S1|].
    eapply is_sup_ext; [|exact S2]. intros u U1 U2. eapply IHf; eauto.
  - destruct H1 as (g1 & G1 & S1). destruct H2 as (g2 & G2 & S2). eapply is_inf_unique; [exact S1|].
    eapply is_inf_ext; [|exact S2]. intros u U1 U2. eapply IHf; eauto.
  - destruct H1 as (gl1 & gr1 & h1 & L1 & R1 & I1 & S1). destruct H2 as (gl2 & gr2 & h2 & L2 & R2 & I2 & S2).
    eapply is_sup_unique; [exact S1|]. eapply is_sup_ext; [|exact S2]. intros u U1 U2. cbn beta. f_equal.
    + eapply IHf2; eauto.
    + destruct (Qclt_le_dec u t) as [D|D].
      * exfalso. specialize (I1 u U1 U2). destruct I1 as [_ I1].
        specialize (I1 (h1 u + 1)). assert (h1 u + 1 <= h1 u); [|qlra]. apply I1. intros. qlra.
      * eapply is_inf_unique; [apply I2; auto|]. eapply is_inf_ext; [|apply I1; auto].
        intros u' V1 V2. eapply IHf1; eauto; apply L1 || apply L2 || idtac; qlra.
Qed.

Lemma rob_within : forall M w f t v, afrag val w f -> within cst data M f -> rob cst val data f t v -> - M <= v /\ v <= M.
Proof.
  intros M w f. induction f; intros t x F W H; cbn [afrag within] in *; try contradiction.
  - apply (W t). exact H.
  - cbn [rob] in H. destruct H as (y & H & ->). destruct (IHf _ _ F W H). split; qlra.
  - cbn [rob] in H. destruct H as (a & b & H1 & H2 & ->). destruct (IHf1 t a ltac:(tauto) ltac:(tauto) H1). destruct (IHf2 t b ltac:(tauto) ltac:(tauto) H2).
    destruct (qmin_cases a b) as [[-> ?]|[-> ?]]; auto.
  - cbn [rob] in H. destruct H as (a & b & H1 & H2 & ->). destruct (IHf1 t a ltac:(tauto) ltac:(tauto) H1). destruct (IHf2 t b ltac:(tauto) ltac:(tauto) H2).
    destruct (qmax_cases a b) as [[-> ?]|[-> ?]]; auto.
  - cbn [rob] in H. destruct H as (a & b & H1 & H2 & ->). destruct (IHf1 t a ltac:(tauto) ltac:(tauto) H1). destruct (IHf2 t b ltac:(tauto) ltac:(tauto) H2).
    destruct (qmax_cases (- a) b) as [[-> ?]|[-> ?]]; split; qlra.
  - cbn [rob] in H. destruct H as (g & G & S). destruct F as (F1 & F2 & F3).
    apply (is_ext_within true g (t + val (ibegin i)) (t + val (iend i))); auto; [qlra|].
    intros u U1 U2. eapply IHf; eauto.
  - cbn [rob] in H. destruct H as (g & G & S). destruct F as (F1 & F2 & F3).
    apply (is_ext_within false g (t + val (ibegin i)) (t + val (iend i))); auto; [qlra|].
    intros u U1 U2. eapply IHf; eauto.
Qed.
End Unique.

Lemma covers_started : forall val T w f s e, afrag val w f -> s <= e -> covers val T f e -> started val T f s.
Proof.
  intros val T w f. induction f; intros s e F H C; cbn [afrag covers started] in *; try contradiction; auto.
  - qlra.
  - eauto.
  - destruct F, C. eauto.
  - destruct F, C. eauto.
  - destruct F, C. eauto.
  - destruct F as (F1 & F2 & F3). eapply IHf; eauto. qlra.
  - destruct F as (F1 & F2 & F3). eapply IHf; eauto. qlra.
Qed.

(** ** The pass *)
Section Pass.
Variable E : env Qc.
Variable w : nat.
Hypothesis LIN : e_ip E = LINEAR.
Hypothesis SPC : e_sem E = SPACE.
Hypothesis TR : trace w (e_data E).

Notation T := (last_time (e_data E)).
Notation val := (bound_value E).
Notation cst := (eff E).
Notation D := (e_data E).
Notation M := (e_M E).
Notation Rob := (rob cst val D).

Notation prep := (ExprPass.prep E).

Lemma rising0 : rising (column D 0).
Proof. destruct TR as (_ & R & _). exact R. Qed.

(** What the pass leaves at a node evaluated over [[s,e]]. *)
Definition exact_sig (f : fml Qc) (s e : Qc) (z : signal Qc) (g : Qc -> Qc) : Prop :=
  beginTime z = s /\ endTime z = e /\ crepQ (fun u v => g u = v) z /\
  (forall u, s <= u -> u <= e -> Rob f u (g u)) /\
  (forall lo t, settled cst val D f lo e -> s <= t -> t <= lo -> t < e -> late g z t).

Lemma exact_within : forall f s e z g, afrag val w f -> within cst D M f -> exact_sig f s e z g ->
  forall u, beginTime z <= u -> u <= endTime z -> - M <= g u /\ g u <= M.
Proof.
  intros f s e z g F W (H1 & H2 & _ & H3 & _) u U1 U2. eapply rob_within; eauto. apply H3; congruence.
Qed.

Lemma exact_late_for : forall f a b s e z g, exact_sig f (s + a) (e + b) z g ->
  (a < b -> s < e -> settled cst val D f (s + b) (e + b)) -> late_for g z (b - a).
Proof.
  intros f a b s e z g (H1 & H2 & _ & _ & H3) S A1 A2. rewrite H1, H2 in *.
  assert (SE : s < e) by qlra. apply H3 with (lo := s + b); try qlra. apply S; qlra.
Qed.

Lemma ramp_late : forall f s e z h lo t, beginTime z = s -> endTime z = e -> crepQ (fun u v => h u = v) z ->
  (forall u, s <= u -> u <= e -> Rob f u (h u)) -> no_ramp cst val D f lo e -> s <= t -> t <= lo -> t < e -> late h z t.
Proof.
  intros f s e z h lo t B1 B2 R V N H1 H2 H3. apply late_of with (lo := lo); auto; rewrite ?B1, ?B2; try qlra.
  intros c C. apply N. intros u v x U1 U2 A1 A2.
  rewrite (rob_unique cst val D rising0 f lo _ _ A1 (V lo ltac:(qlra) ltac:(qlra))).
  rewrite (rob_unique cst val D rising0 f u _ _ A2 (V u ltac:(qlra) ltac:(qlra))). apply C; auto.
Qed.

(** One timed operator over an exact operand. *)
Lemma timed_exact : forall ev self i c s e x g, let f := if ev : bool then FEv i c else FAlw i c in
  afrag val w f -> within cst D M c -> s <= e -> regular cst val D f s e ->
  exact_sig c (s + val (ibegin i)) (e + val (iend i)) x g ->
  exists z0 z h, timed ev M self x (val (ibegin i)) (val (iend i)) = Ok z0 /\
    endTime z0 = e + val (iend i) - val (ibegin i) /\ resize z0 s e n0 = Ok z /\ exact_sig f s e z h.
Proof.
  intros ev self i c s e x g f F W H RS X.
  assert (F' : 0 <= val (ibegin i) /\ val (ibegin i) <= val (iend i) /\ afrag val w c) by (destruct ev; exact F).
  assert (RS' : (val (ibegin i) < val (iend i) -> s < e -> settled cst val D c (s + val (iend i)) (e + val (iend i))))
    by (destruct ev; exact (proj1 RS)).
  destruct F' as (F1 & F2 & F3).
  pose proof (exact_late_for _ _ _ _ _ _ _ X RS') as LF.
  pose proof (exact_within _ _ _ _ _ F3 W X) as WX.
  destruct X as (X1 & X2 & X3 & X4 & X5).
  destruct (window_q ev M self g x (val (ibegin i)) (val (iend i)) s e n0) as (z0 & z & h & A1 & A2 & A3 & A4 & A5 & A6 & A7 & A8 & A9); auto;
    rewrite ?X1, ?X2; try qlra.
  { intros u U1 U2. f_equal. apply Qcle_antisym; auto. }
  { destruct (crepQ_front _ _ X3) as (p & l & S1 & S2 & _). rewrite S1. left. congruence. }
  exists z0, z, h. split; [exact A1|]. split; [rewrite A2, X2; reflexivity|]. split; [exact A3|].
  assert (V : forall u, s <= u -> u <= e -> Rob f u (h u)).
  { intros u U1 U2. specialize (A7 u U1 U2). rewrite X2, qmin_l in A7 by qlra.
    assert (G : forall u', u + val (ibegin i) <= u' -> u' <= u + val (iend i) -> Rob c u' (g u')) by (intros; apply X4; qlra).
    destruct ev; exists g; split; auto. }
  split; [exact A4|]. split; [exact A5|]. split; [exact A6|]. split; [exact V|].
  intros lo t S H1 H2 H3.
  assert (S' : (val (ibegin i) = val (iend i) /\ settled cst val D c (lo + val (ibegin i)) (e + val (iend i))) \/
               (covers val T f e /\ no_ramp cst val D f lo e)) by (destruct ev; exact S).
  destruct S' as [[AB S']|[_ S']].
  - destruct (X5 _ (t + val (ibegin i)) S') as [(q & I & Tq)|C]; try qlra.
    + left. destruct (A9 AB q I) as (q' & I' & Tq'); try qlra.
      { pose proof (crep_times _ _ X3) as TT. rewrite Forall_forall in TT. specialize (TT q I). rewrite X2 in TT. qlra. }
      exists q'. split; auto. rewrite Tq'. qlra.
    + right. rewrite A5. intros u U1 U2.
      assert (P : forall u, s <= u -> u <= e -> h u = g (u + val (ibegin i))).
      { intros u' V1 V2. specialize (A7 u' V1 V2). rewrite X2, qmin_l in A7 by qlra. rewrite <- AB in A7.
        eapply is_ext_unique; [exact A7|]. destruct ev; (split; [intros y Y1 Y2; assert (Y : y = u' + val (ibegin i)) by (apply Qcle_antisym; auto); rewrite Y; apply Qcle_refl|intros y Y; apply Y; apply Qcle_refl]). }
      rewrite !P by qlra. apply C; [qlra|rewrite X2; qlra].
  - eapply ramp_late; eauto.
Qed.

Lemma rob_pass : forall f s e, afrag val w f -> 0 <= s -> s <= e -> covers val T f e -> within cst D M f ->
  regular cst val D f s e ->
  exists v t g, compute_rob E (prep f s e) = Ok (v, t) /\ exact_sig f s e (tz t) g /\ v = g s.
Proof.
  induction f; intros s e F H0 H1 C W RS; cbn [afrag] in F; try contradiction.
  - (* atom *)
    destruct F as ((Xl & Xr) & Al & Ar). cbn [covers] in C.
    destruct (atom_pass1 E w LIN TR SPC f1 op f2 s e) as (v & n' & tl' & tr' & A1 & A2 & A3 & A4); auto; try qlra.
    exists v, (TAtom n' tl' op tr'), (xdiff E f1 op f2). split; [exact A1|]. split; [|exact A4].
    rewrite qmin_l in A3 by auto. unfold tz. cbn [node].
    split; [apply A3|]. split; [apply A3|]. split; [apply A3|].
    assert (V : forall u, s <= u -> u <= e -> Rob (FAtom f1 op f2) u (xdiff E f1 op f2 u)).
    { intros u U1 U2. apply (atom_rob E w TR); auto. }
    split; [exact V|].
    intros lo t S T1 T2 T3. cbn [settled] in S. destruct S as [(t' & I & T4 & T5)|S].
    + left. assert (I' : In t' (map time (samples (nz n')))) by (apply A3; auto; qlra).
      apply in_map_iff in I'. destruct I' as (q & Tq & Iq). exists q. split; auto. rewrite Tq. qlra.
    + destruct A3. eapply (ramp_late _ s e); eauto.
  - (* not *)
    destruct (IHf s e F H0 H1 C W RS) as (v & t & g & A1 & (A2 & A3 & A4 & A5 & A6) & A7).
    change (prep (FNot f) s e) with (TNot (fresh s e) (prep f s e)). cbn [compute_rob]. rewrite A1. cbn [bind].
    pose proof (crep_neg_fn _ _ A4) as R. rewrite (front_crep _ _ R). cbn [bind].
    do 2 eexists. exists (fun u => - g u). split; [reflexivity|]. cbn [tz node with_z nz].
    split; [|cbn [compute_not beginTime]; rewrite A2; reflexivity].
    split; [exact A2|]. split; [exact A3|]. split; [exact R|]. split.
    + intros u U1 U2. cbn [rob]. eexists. split; [apply A5; auto|reflexivity].
    + intros lo t' S T1 T2 T3. apply late_cnot. eapply A6; eauto.
  - (* and *)
    destruct F as [F1 F2]. destruct C as [C1 C2]. destruct W as [W1 W2]. destruct RS as [RS1 RS2].
    destruct (IHf1 s e F1 H0 H1 C1 W1 RS1) as (v1 & t1 & g1 & A1 & (A2 & A3 & A4 & A5 & A6) & A7).
    destruct (IHf2 s e F2 H0 H1 C2 W2 RS2) as (v2 & t2 & g2 & B1 & (B2 & B3 & B4 & B5 & B6) & B7).
    change (prep (FAnd f1 f2) s e) with (TAnd (fresh s e) (prep f1 s e) (prep f2 s e)). cbn [compute_rob].
    rewrite A1. cbn [bind]. rewrite B1. cbn [bind].
    assert (SM : smax (endTime (tz t1)) (endTime (tz t2)) = e) by (rewrite A3, B3; apply smax_same). rewrite SM.
    pose proof (with_end_same (tz t1)) as WE1. rewrite A3 in WE1. rewrite WE1.
    pose proof (with_end_same (tz t2)) as WE2. rewrite B3 in WE2. rewrite WE2.
    destruct (compute_and_q (tz t1) (tz t2) _ _ (fun u v => qmin (g1 u) (g2 u) = v) A4 B4) as (z & Z1 & [Z2 Z3 Z4 Z5 Z6]).
    { rewrite A2, B2, A3, B3, qmax_same, qmin_same. auto. }
    { intros u x y _ _ <- <-. reflexivity. }
    rewrite A2, B2, qmax_same in Z2. rewrite A3, B3, qmin_same in Z3.
    rewrite Z1. cbn [bind]. rewrite (front_crep (fun u => qmin (g1 u) (g2 u)) _ Z4). cbn [bind].
    do 2 eexists. exists (fun u => qmin (g1 u) (g2 u)). split; [reflexivity|]. cbn [tz node with_z nz].
    split; [|rewrite Z2; reflexivity].
    split; [exact Z2|]. split; [exact Z3|]. split; [exact Z4|]. split.
    + intros u U1 U2. cbn [rob]. do 2 eexists. split; [apply A5; auto|]. split; [apply B5; auto|reflexivity].
    + intros lo t' S T1 T2 T3. apply ends_late; auto. rewrite Z3. qlra.
  - (* or *)
    destruct F as [F1 F2]. destruct C as [C1 C2]. destruct W as [W1 W2]. destruct RS as [RS1 RS2].
    destruct (IHf1 s e F1 H0 H1 C1 W1 RS1) as (v1 & t1 & g1 & A1 & (A2 & A3 & A4 & A5 & A6) & A7).
    destruct (IHf2 s e F2 H0 H1 C2 W2 RS2) as (v2 & t2 & g2 & B1 & (B2 & B3 & B4 & B5 & B6) & B7).
    change (prep (FOr f1 f2) s e) with (TOr (fresh s e) (prep f1 s e) (prep f2 s e)). cbn [compute_rob].
    rewrite A1. cbn [bind]. rewrite B1. cbn [bind].
    assert (SM : smax (endTime (tz t1)) (endTime (tz t2)) = e) by (rewrite A3, B3; apply smax_same). rewrite SM.
    pose proof (with_end_same (tz t1)) as WE1. rewrite A3 in WE1. rewrite WE1.
    pose proof (with_end_same (tz t2)) as WE2. rewrite B3 in WE2. rewrite WE2.
    destruct (compute_or_q (tz t1) (tz t2) _ _ (fun u v => qmax (g1 u) (g2 u) = v) A4 B4) as (z & Z1 & [Z2 Z3 Z4 Z5 Z6]).
    { rewrite A2, B2, A3, B3, qmax_same, qmin_same. auto. }
    { intros u x y _ _ <- <-. reflexivity. }
    rewrite A2, B2, qmax_same in Z2. rewrite A3, B3, qmin_same in Z3.
    rewrite Z1. cbn [bind]. rewrite (front_crep (fun u => qmax (g1 u) (g2 u)) _ Z4). cbn [bind].
    do 2 eexists. exists (fun u => qmax (g1 u) (g2 u)). split; [reflexivity|]. cbn [tz node with_z nz].
    split; [|rewrite Z2; reflexivity].
    split; [exact Z2|]. split; [exact Z3|]. split; [exact Z4|]. split.
    + intros u U1 U2. cbn [rob]. do 2 eexists. split; [apply A5; auto|]. split; [apply B5; auto|reflexivity].
    + intros lo t' S T1 T2 T3. apply ends_late; auto. rewrite Z3. qlra.
  - (* implies *)
    destruct F as [F1 F2]. destruct C as [C1 C2]. destruct W as [W1 W2]. destruct RS as [RS1 RS2].
    destruct (IHf1 s e F1 H0 H1 C1 W1 RS1) as (v1 & t1 & g1 & A1 & (A2 & A3 & A4 & A5 & A6) & A7).
    destruct (IHf2 s e F2 H0 H1 C2 W2 RS2) as (v2 & t2 & g2 & B1 & (B2 & B3 & B4 & B5 & B6) & B7).
    change (prep (FImp f1 f2) s e) with (TImp (fresh s e) (prep f1 s e) (prep f2 s e)). cbn [compute_rob].
    rewrite A1. cbn [bind]. rewrite B1. cbn [bind]. unfold compute_implies.
    pose proof (crep_neg_fn _ _ A4) as R.
    destruct (compute_or_q (cnot (tz t1)) (tz t2) _ _ (fun u v => qmax (- g1 u) (g2 u) = v) R B4) as (z & Z1 & [Z2 Z3 Z4 Z5 Z6]).
    { cbn [compute_not beginTime endTime]. rewrite A2, B2, A3, B3, qmax_same, qmin_same. auto. }
    { intros u x y _ _ <- <-. reflexivity. }
    cbn [compute_not beginTime endTime] in Z2, Z3.
    rewrite A2, B2, qmax_same in Z2. rewrite A3, B3, qmin_same in Z3.
    rewrite Z1. cbn [bind]. rewrite (front_crep (fun u => qmax (- g1 u) (g2 u)) _ Z4). cbn [bind].
    do 2 eexists. exists (fun u => qmax (- g1 u) (g2 u)). split; [reflexivity|]. cbn [tz node with_z nz].
    split; [|rewrite Z2; reflexivity].
    split; [exact Z2|]. split; [exact Z3|]. split; [exact Z4|]. split.
    + intros u U1 U2. cbn [rob]. do 2 eexists. split; [apply A5; auto|]. split; [apply B5; auto|reflexivity].
    + intros lo t' S T1 T2 T3. apply ends_late; auto. rewrite Z3. qlra.
  - (* eventually *)
    pose proof F as (F1 & F2 & F3). pose proof RS as (RS1 & RS2).
    destruct (IHf (s + val (ibegin i)) (e + val (iend i))) as (v1 & t1 & g1 & A1 & A2 & A3); auto; try qlra.
    destruct (timed_exact true empty_signal i f s e _ _ F W H1 RS A2) as (z0 & z & h & Z1 & Z2 & Z3 & Z4).
    change (prep (FEv i f) s e) with (TEv (fresh s e) i (prep f (s + val (ibegin i)) (e + val (iend i)))). cbn [compute_rob].
    rewrite A1. cbn [bind]. change (nz (fresh s e)) with (@empty_signal Qc _). change (start_time (fresh s e)) with s. change (end_time (fresh s e)) with e.
    unfold timed in Z1. rewrite Z1. cbn [bind].
    assert (ET : smin (endTime z0) e = e). { rewrite smin_qmin, Z2. apply qmin_r. qlra. }
    rewrite ET, smax_r by auto.
    destruct A2 as (B1 & B2 & B3 & _).
    destruct (resize_some (tz t1) (nsub e (val (iend i))) (endTime (tz t1)) n0) as (zc & Y1 & _); auto.
    { apply B3. }
    { rewrite B2. change (e - val (iend i) <= e + val (iend i)). qlra. }
    { apply removelast_forall. eapply crep_times; eauto. }
    rewrite Y1. cbn [bind]. rewrite Z3. cbn [bind].
    pose proof Z4 as (D1 & D2 & D3 & _).
    rewrite (front_crep _ _ D3). cbn [bind]. do 2 eexists. exists h. split; [reflexivity|]. cbn [tz node with_z nz].
    split; [exact Z4|]. rewrite D1. reflexivity.
  - (* always *)
    pose proof F as (F1 & F2 & F3). pose proof RS as (RS1 & RS2).
    destruct (IHf (s + val (ibegin i)) (e + val (iend i))) as (v1 & t1 & g1 & A1 & A2 & A3); auto; try qlra.
    destruct (timed_exact false empty_signal i f s e _ _ F W H1 RS A2) as (z0 & z & h & Z1 & Z2 & Z3 & Z4).
    change (prep (FAlw i f) s e) with (TAlw (fresh s e) i (prep f (s + val (ibegin i)) (e + val (iend i)))). cbn [compute_rob].
    rewrite A1. cbn [bind]. change (nz (fresh s e)) with (@empty_signal Qc _). change (start_time (fresh s e)) with s. change (end_time (fresh s e)) with e.
    unfold timed in Z1. rewrite Z1. cbn [bind].
    assert (ET : smin (endTime z0) e = e). { rewrite smin_qmin, Z2. apply qmin_r. qlra. }
    rewrite ET, smax_r by auto. rewrite Z3. cbn [bind].
    pose proof Z4 as (D1 & D2 & D3 & _).
    rewrite (front_crep _ _ D3). cbn [bind]. do 2 eexists. exists h. split; [reflexivity|]. cbn [tz node with_z nz].
    split; [exact Z4|]. rewrite D1. reflexivity.
Qed.

End Pass.
