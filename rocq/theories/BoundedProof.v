(** Correctness of the windowed supremum (computeBoundedEventually). *)
From Coq Require Import List QArith Qcanon Bool Lia.
From Verif Require Import Num Base Signal QcTac Spec Robust Repr AndProof NegProof SimplifyProof Lip BoolOps Closed SigProof ResizeProof EvProof PlateauProof.
Import ListNotations.
Local Open Scope Qc_scope.

(** A piecewise linear function is bounded on [[u,hi]] by its values at the ends
    and at the samples inside. *)
Lemma finite_sup : forall f e z t, prep true f e z t -> forall u hi m, t <= u -> u <= hi -> hi <= e ->
  f u <= m -> f hi <= m ->
  (forall q, In q z -> u < time q -> time q < hi -> f (time q) <= m) ->
  forall u', u <= u' -> u' <= hi -> f u' <= m.
Proof.
  intros f e z t P. induction P as [|p z t t' H1 H2 H3 P IH]; intros u hi m U1 U2 U3 F1 F2 F3 u' V1 V2.
  - replace u' with u by qlra. auto.
  - assert (Z : t' < hi -> exists q z', z = q :: z' /\ time q = t').
    { intros L. destruct z as [|q z].
      - inversion P; subst. exfalso. qlra.
      - exists q, z. split; auto. eapply prepQ_front; eauto. }
    destruct (Qclt_le_dec u' t') as [C|C].
    + destruct (Qclt_le_dec t' hi) as [D|D].
      * destruct (Z D) as (q & z' & -> & Tq).
        assert (Ft : f t' <= m).
        { rewrite <- Tq. apply F3; cbn; auto; qlra. }
        rewrite (H3 u') by (cbn; qlra).
        rewrite (H3 u) in F1; try (cbn; qlra). rewrite (H3 t') in Ft; try (cbn; qlra).
        apply (line_le_ends p u u' t'); auto; qlra.
      * rewrite (H3 u') by (cbn; qlra).
        rewrite (H3 u) in F1; try (cbn; qlra). rewrite (H3 hi) in F2; try (cbn; qlra).
        apply (line_le_ends p u u' hi); auto; qlra.
    + destruct (Qclt_le_dec u t') as [D|D].
      * apply (IH t' hi m); auto; try qlra.
        -- destruct (Qclt_le_dec t' hi) as [D'|D'].
           ++ destruct (Z D') as (q & z' & -> & Tq). rewrite <- Tq. apply F3; cbn; auto; qlra.
           ++ replace t' with hi by qlra. auto.
        -- intros q J Q1' Q2'. apply F3; cbn; auto; qlra.
      * apply (IH u hi m); auto. intros q J. apply F3. cbn. auto.
Qed.

(** The last sample at time [c]. *)
Lemma last_at : forall c l, ordered l -> (exists q : smp, In q l /\ time q = c) ->
  exists A q B, l = A ++ q :: B /\ time q = c /\ Forall (fun q => c < time q) B.
Proof.
  intros c. induction l as [|p l IH] using rev_ind; intros O (q & J & T); [destruct J|].
  apply ordered_app in O. destruct O as (O1 & _ & O2). apply in_app_or in J.
  destruct (Qclt_le_dec c (time p)) as [C|C].
  - destruct J as [J|[<-|[]]]; [|exfalso; qlra].
    destruct IH as (A & q' & B & -> & T' & F); eauto.
    exists A, q', (B ++ [p]). rewrite <- app_assoc. split; [reflexivity|]. split; [auto|]. apply Forall_app. auto.
  - exists l, p, []. split; [reflexivity|]. split; [|constructor].
    destruct J as [J|[<-|[]]]; auto. specialize (O2 q p J (or_introl eq_refl)). qlra.
Qed.

(** Enough data after [s] for resize not to lose the slope. *)
Definition late (xf : Qc -> Qc) (x : signal Qc) (s : Qc) : Prop :=
  (exists q, In q (samples x) /\ s <= time q) \/ (forall u, s <= u -> u <= endTime x -> xf u = xf s).

Lemma resize_front_late : forall xf x s, crep xf x -> beginTime x <= s -> s <= endTime x -> late xf x s ->
  exists l, resize_front x s = Ok (l, endTime x) /\ prep true xf (endTime x) l s /\ l <> [].
Proof.
  intros xf x s R B1 B2 L.
  destruct (resize_front_q _ x s R B1 B2) as (l & e' & E1 & E2 & E3 & E4 & E5 & E6 & E7).
  destruct L as [L|L].
  - rewrite (E5 L) in E2. eauto.
  - destruct E4 as [->|E4]; [eauto|].
    destruct (existsb (fun q => nleb s (time q)) (samples x)) eqn:Ex.
    { apply existsb_exists in Ex. destruct Ex as (q & J & T). qb. rewrite E5 in E2 by eauto. eauto. }
    assert (Fx : Forall (fun q => time q < s) (samples x)).
    { rewrite Forall_forall. intros q J. apply Qcnot_le_lt. intro C. 
      assert (K : existsb (fun q => nleb s (time q)) (samples x) = true); [|congruence].
      apply existsb_exists. exists q. split; auto. apply nleb_true. auto. }
    exists [mkS s (xf s) 0]. split; [|split; [|discriminate]].
    + unfold resize_front in *.
      assert (B : nltb s (beginTime x) = false) by (apply nltb_false; auto). rewrite B in *.
      pose proof (pop_front_spec s (samples x) default_sample) as (pre & H).
      destruct (pop_front_lt s default_sample (samples x)) as [f l'].
      destruct H as (H1 & H2 & H3 & H4).
      destruct l' as [|q l'].
      * assert (BE : nltb (endTime x) s = false) by (apply nltb_false; auto). rewrite BE in *.
        inversion E1; subst l. inversion E2 as [|? ? ? t3 A1 A2 A3 A4]; subst. vline.
        assert (K : xf s = line f s).
        { rewrite A3; [|qlra|cbn; auto]. change n0 with 0. rewrite line0. reflexivity. }
        rewrite K. reflexivity.
      * exfalso. rewrite H1 in Fx. rewrite Forall_app in Fx. destruct Fx as [_ Fx]. apply Forall_inv in Fx. qlra.
    + apply prep_cons with (t' := endTime x); auto; [|constructor].
      intros u U1 U2. cbn in U2. rewrite line0. auto.
Qed.

(** Without it the slope is lost, but not the value at [s]. *)
Lemma prepQ_extend : forall Q e e' l t, prepQ true Q e' l t -> l <> [] -> e' <= e -> prepQ true (fun u v => u <= e' -> Q u v) e l t.
Proof.
  intros Q e e' l t P. induction P as [|p z t t' H1 H2 H3 P IH]; intros N L; [congruence|].
  destruct z as [|p' z].
  - inversion P; subst. apply prep_cons with (t' := e); [auto|qlra|intros u U1 U2 U3; apply H3; auto|constructor].
  - apply prep_cons with (t' := t'); auto. apply IH; auto. discriminate.
Qed.

Lemma prepQ_start : forall cl Q Q' e l t t', prepQ cl Q e l t -> prepQ cl Q' e l t' -> t = t'.
Proof. intros cl Q Q' e l t t' P P'. inversion P; inversion P'; subst; congruence. Qed.
Lemma prepQ_and : forall (full : Prop) cl Q Q' e l t, prepQ cl Q e l t -> (full -> prepQ cl Q' e l t) ->
  prepQ cl (fun u v => Q u v /\ (full -> Q' u v)) e l t.
Proof.
  intros full cl Q Q' e l t P. induction P as [|p z t t' H1 H2 H3 P IH]; intros F; [constructor|].
  apply prep_cons with (t' := t'); auto.
  - intros u U1 U2. split; [auto|]. intros K. specialize (F K). inversion F as [|? ? ? t2 A1 A2 A3 A4]; subst.
    rewrite (prepQ_start _ _ _ _ _ _ _ P A4) in U2. auto.
  - apply IH. intros K. specialize (F K). inversion F as [|? ? ? t2 A1 A2 A3 A4]; subst.
    rewrite (prepQ_start _ _ _ _ _ _ _ P A4). exact A4.
Qed.

Lemma resize_front_full : forall (full : Prop) xf x s, crep xf x -> beginTime x <= s -> s <= endTime x -> (full -> late xf x s) ->
  exists l, resize_front x s = Ok (l, endTime x) /\ prepQ true (fun u v => full \/ u = s -> xf u = v) (endTime x) l s /\ l <> [].
Proof.
  intros full xf x s R B1 B2 L.
  destruct (resize_front_q _ x s R B1 B2) as (l & e' & E1 & E2 & E3 & E4 & E5 & E6 & E7).
  exists l. split; [auto|]. split; [|auto]. destruct E4 as [->| ->].
  - eapply prepQ_impl; [exact E2|]. intros u v U1 U2 H _. exact H.
  - apply (prepQ_extend _ (endTime x)) in E2; auto.
    assert (F : full -> prep true xf (endTime x) l s).
    { intros H. destruct (resize_front_late xf x s R B1 B2 (L H)) as (l' & F1 & F2 & F3). congruence. }
    eapply prepQ_impl; [exact (prepQ_and full _ _ _ _ _ _ E2 F)|]. intros u v U1 U2 [H1 H2] [K|K]; [auto|]. apply H1. qlra.
Qed.

(** Simplifying a result again changes nothing of what it denotes. *)
Lemma simplify_again : forall z b e Q, qres z b e Q -> exists z', simplify z = Ok z' /\ qres z' b e Q.
Proof.
  intros z b e Q [B1 B2 [N R] (p & l & Es & Tp & F) En].
  destruct z as [zs zb ze]. cbn [samples beginTime endTime] in *. subst zb ze zs.
  destruct (simplify_ok p l b e) as (l' & S1 & S2 & S3 & S4 & S5 & S6 & S7 & S8 & S9); auto.
  { eapply prepQ_ordered; eauto. }
  eexists; split; [exact S1|]. constructor; cbn [samples beginTime endTime]; auto.
  - split; [discriminate|]. apply S8. auto.
  - exists p, l'. auto.
  - destruct S9 as (q & Q1 & Q2); [eapply prepQ_le; eauto| |exists q; auto].
    pose proof (prepQ_le_end _ _ _ _ _ R) as L. inversion L; auto.
Qed.

Section Bounded.
Variables (full : Prop) (M : Qc) (xf : Qc -> Qc) (x : signal Qc) (a : Qc).
Let b := beginTime x.
Let e := endTime x.
Let c := e - a.
Hypothesis Rx : crep xf x.
Hypothesis Ha : 0 < a.
Hypothesis Hbc : b <= c.
Hypothesis FB : forall u, b <= u -> u <= e -> - M <= xf u.
Hypothesis Lt : full -> late xf x (b + a).

(** The times at which the result is exact. *)
Let ok (u : Qc) : Prop := full \/ u = b.

Let P (u v w : Qc) : Prop := ok u -> is_sup xf u (qmin (u + a) e) (qmax (xf u) (qmax v w)).

Lemma max3_ge : forall p q r, p <= qmax p (qmax q r) /\ q <= qmax p (qmax q r) /\ r <= qmax p (qmax q r).
Proof.
  intros p q r. destruct (qmax_cases q r) as [[-> ?]|[-> ?]].
  - destruct (qmax_cases p q) as [[-> ?]|[-> ?]]; repeat split; qlra.
  - destruct (qmax_cases p r) as [[-> ?]|[-> ?]]; repeat split; qlra.
Qed.
Lemma max3_le : forall p q r w, p <= w -> q <= w -> r <= w -> qmax p (qmax q r) <= w.
Proof.
  intros p q r w H1 H2 H3. destruct (qmax_cases q r) as [[-> ?]|[-> ?]].
  - destruct (qmax_cases p q) as [[-> ?]|[-> ?]]; auto.
  - destruct (qmax_cases p r) as [[-> ?]|[-> ?]]; auto.
Qed.

Lemma point_fn : forall t v, In (t, v) (points xf x) -> v = xf t /\ t <= e.
Proof.
  intros t v J. pose proof (points_sorted xf x Rx) as [_ F]. rewrite Forall_forall in F. specialize (F _ J). cbn in F.
  split; auto. unfold points in J. apply in_app_or in J. destruct J as [J|[J|[]]].
  - apply in_map_iff in J. destruct J as (q & J & _). congruence.
  - congruence.
Qed.

Lemma point_in : forall q, In q (samples x) -> In (time q, xf (time q)) (points xf x).
Proof.
  intros q J. unfold points. apply in_or_app. left. apply in_map_iff. eauto.
Qed.

Lemma point_end : In (e, xf e) (points xf x).
Proof. unfold points. apply in_or_app. right. cbn. auto. Qed.

Lemma P_of : forall u v w hi, b <= u -> u <= e -> hi = qmin (u + a) e ->
  Q1 M a (points xf x) u w ->
  xf hi <= qmax (xf u) (qmax v w) ->
  (v = - M \/ v = xf hi) -> P u v w.
Proof.
  intros u v w hi U1 U2 Hh [Qa Qb] Hhi Hv _. rewrite <- Hh.
  destruct (max3_ge (xf u) v w) as (G1 & G2 & G3).
  assert (Hu : u <= hi /\ hi <= e /\ hi <= u + a).
  { subst hi. destruct (qmin_cases (u + a) e) as [[-> ?]|[-> ?]]; repeat split; qlra. }
  destruct Hu as (Hu1 & Hu2 & Hu3).
  split.
  - destruct Rx as [_ R]. apply (finite_sup xf e (samples x) b R u hi); auto.
    intros q J T1 T2. specialize (Qb _ _ (point_in q J) T1 ltac:(qlra)). qlra.
  - intros W HW.
    assert (W1 : xf u <= W) by (apply HW; qlra).
    assert (W2 : xf hi <= W) by (apply HW; qlra).
    assert (W3 : - M <= W) by (pose proof (FB u U1 U2); qlra).
    apply max3_le; auto.
    + destruct Hv as [->| ->]; auto.
    + destruct Qa as [->|(t & J & T1 & T2)]; auto.
      destruct (point_fn _ _ J) as [-> Te]. apply HW; auto.
      subst hi. destruct (qmin_cases (u + a) e) as [[-> ?]|[-> ?]]; auto.
Qed.

Lemma P_A : forall u v w, b <= u -> u <= c -> (ok u -> xf (u + a) = v) -> Q1 M a (points xf x) u w -> P u v w.
Proof.
  intros u v w U1 U2 HV HQ K. specialize (HV K). subst v. revert K. unfold c in U2.
  apply (P_of u _ w (u + a)); auto; try qlra.
  - rewrite qmin_l; auto. qlra.
  - apply max3_ge.
Qed.

Lemma P_B : forall u w, b <= u -> u <= e -> c < u \/ (c = u /\ xf e <= w) -> Q1 M a (points xf x) u w -> P u (- M) w.
Proof.
  intros u w U1 U2 H HQ.
  apply (P_of u _ w e); auto.
  - rewrite qmin_r; auto. unfold c in H. destruct H as [H|[H _]]; qlra.
  - destruct (max3_ge (xf u) (- M) w) as (G1 & G2 & G3).
    destruct H as [H|[H H']]; [|qlra].
    destruct (Qcle_lt_or_eq _ _ U2) as [L|L].
    + assert (xf e <= w); [|qlra]. destruct HQ as [_ HQ]. apply (HQ e); auto using point_end. unfold c in H. qlra.
    + rewrite <- L. auto.
Qed.

(** Second operand: the signal read [a] later. *)
Lemma shifted_rep : exists z2, resize x (b + a) (e + a) (- M) = Ok z2 /\
  let z := shift z2 (- a) in beginTime z = b /\ endTime z = e /\
  exists X, prepQ true (fun u v => ok u -> xf (u + a) = v) c X b /\ X <> [] /\
   (samples z = X ++ [mkS c (- M) 0] \/
    (samples z = X /\ prepQ true (fun u v => if Qclt_le_dec c u then v = - M else ok u -> xf (u + a) = v) e X b)).
Proof.
  assert (Hc : c + a = e) by (unfold c; ring).
  assert (B : b + a <= e) by (unfold c in *; qlra).
  destruct (resize_front_full full xf x (b + a) Rx ltac:(fold b; qlra) B Lt) as (l & E1 & E2 & E3).
  fold e in E1, E2.
  unfold resize. rewrite eps_lt by qlra.
  assert (Bt : nltb (e + a) (b + a) = false) by (apply nltb_false; qlra). rewrite Bt, E1. cbn [bind].
  unfold resize_back.
  assert (Be : nltb e (e + a) = true) by (apply nltb_true; qlra). rewrite Be.
  destruct (exists_last E3) as (r & bk & El).
  assert (Eb : back l = Ok bk).
  { rewrite El. apply back_app. }
  rewrite Eb. cbn [bind].
  pose (X := map (shift_sample (- a)) l).
  assert (PX : prepQ true (fun u v => ok u -> xf (u + a) = v) c X b).
  { pose proof (prepQ_shift true _ e l (b + a) (- a) E2) as K.
    replace (e + - a) with c in K by (unfold c; ring). replace (b + a + - a) with b in K by ring.
    eapply prepQ_impl; [exact K|]. intros u v U1 U2 H. cbn beta in H. replace (u - - a) with (u + a) in H by ring. intros [K1|K1]; apply H; [auto|right; rewrite K1; reflexivity]. }
  assert (NX : X <> []) by (unfold X; destruct l; [congruence|discriminate]).
  destruct (negb (neqb (value bk) (- M)) || negb (neqb (deriv bk) n0)) eqn:T.
  - assert (K : match l ++ [mkS e (- M) n0] with [] => [mkS (b + a) (- M) n0] | _ => l ++ [mkS e (- M) n0] end = l ++ [mkS e (- M) n0]).
    { destruct l; reflexivity. }
    rewrite K. eexists. split; [reflexivity|]. cbv zeta. unfold shift. cbn [samples beginTime endTime].
    split; [unfold nadd; cbn [NumQc]; ring|]. split; [unfold nadd; cbn [NumQc]; ring|].
    exists X. split; [auto|]. split; [auto|]. left. rewrite map_app. cbn [map]. unfold shift_sample at 2.
    cbn [time value deriv]. replace (nadd e (- a)) with c; [reflexivity|]. unfold nadd, c; cbn [NumQc]. reflexivity.
  - assert (K : match l with [] => [mkS (b + a) (- M) n0] | _ => l end = l) by (destruct l; [congruence|reflexivity]).
    rewrite K. eexists. split; [reflexivity|]. cbv zeta. unfold shift. cbn [samples beginTime endTime].
    split; [unfold nadd; cbn [NumQc]; ring|]. split; [unfold nadd; cbn [NumQc]; ring|].
    exists X. split; [auto|]. split; [auto|]. right. split; [reflexivity|].
    apply orb_false_iff in T. destruct T as [T1 T2]. rewrite negb_false_iff in T1, T2. qb.
    assert (EX : X = map (shift_sample (- a)) r ++ [shift_sample (- a) bk]) by (unfold X; rewrite El, map_app; reflexivity).
    rewrite EX in PX |- *. apply prepQ_app in PX. destruct PX as (t1 & P1 & P2). apply prepQ_app. exists t1.
    assert (Ht : t1 <= c) by (eapply prepQ_le; eauto).
    split.
    + eapply prepQ_impl; [exact P1|]. intros u v U1 U2 H. cbn in U2. destruct (Qclt_le_dec c u); [exfalso; qlra|auto].
    + inversion P2 as [|? ? ? t2 A1 A2 A3 A4]; subst. apply prep_cons with (t' := e); auto; [|..|constructor].
      { unfold c in Ht. qlra. }
      intros u U1 U2. destruct (Qclt_le_dec c u) as [C|C].
      * rewrite line_shifted. unfold line. rewrite T1, T2. change n0 with 0. ring.
      * apply A3; auto. assert (t2 = c) by (inversion A4; auto). subst t2. exact C.
Qed.

Lemma merged_cut : forall j1 q2 j2 X t, c < t -> t <= e ->
  drepQ true (Q1 M a (points xf x)) b (j1 ++ q2 :: j2) t ->
  Forall (fun q => deriv q = 0) (j1 ++ q2 :: j2) ->
  Forall (fun q => c < time q) j1 -> time q2 = c ->
  drepQ true (fun u v => ok u -> xf (u + a) = v) b X c ->
  merged true P b (mkS c (- M) 0 :: X) (j1 ++ q2 :: j2) t.
Proof.
  induction j1 as [|q j1 IH]; intros q2 j2 X t T1 T2 D F G Tq DX; cbn [app] in *.
  - assert (PB : forall u, c <= u -> rlt true u t -> (forall u', c <= u' -> rlt true u' t -> Q1 M a (points xf x) u' (line q2 u')) ->
      P u (line (mkS c (- M) 0) u) (line q2 u)).
    { intros u U1 U2 E1. cbn in U2. rewrite line0. apply P_B; try qlra; [|apply E1; auto].
      destruct (Qcle_lt_or_eq _ _ U1) as [C|C]; [left; qlra|right]. split; [qlra|].
      (* the plateau value is constant on a non-trivial piece *)
      apply Forall_inv in F.
      assert (K : forall u', line q2 u' = value q2) by (intros u'; unfold line; rewrite F; ring).
      rewrite K.
      set (u1 := (c + t) / (1 + 1)).
      assert (K1 : u1 * (1 + 1) = c + t) by (unfold u1; apply Qc_div_mul; intro Z; discriminate).
      clearbody u1.
      destruct (E1 u1) as [_ E2]; [qlra|cbn; qlra|]. rewrite K in E2.
      apply (E2 e); auto using point_end; unfold c in *; qlra. }
    inversion D as [? ? ? L1 E1|? ? ? L1 L2 E1 D']; subst.
    { apply m_end; cbn [time]; try qlra. intros u U1 U2. apply PB; auto; [qlra|]. intros u' V1 V2. apply E1; auto. qlra. }
    apply m_ij; cbn [time]; auto; try qlra.
    + intros u U1 U2. apply PB; auto. intros u' V1 V2. apply E1; auto. qlra.
    + rewrite Tq in D'.
      assert (Mg := merged_of_drep _ _ _ _ _ _ DX _ D').
      eapply merged_impl; [exact Mg|]. intros u v w U1 U2 [H1 H2]. apply P_A; auto.
  - inversion D as [? ? ? L1 E1|? ? ? L1 L2 E1 D']; subst.
    + exfalso. apply Forall_inv in G. qlra.
    + inversion F; inversion G; subst. apply m_j; cbn [time]; auto; try qlra.
      * intros u U1 U2. cbn in U2. rewrite line0. apply P_B; try qlra; [left; qlra|]. apply E1; auto.
      * apply IH; auto; qlra.
Qed.

Lemma bounded_ev : exists z, computeBoundedEventually M x a = Ok z /\
  qres z b e (fun u v => ok u -> is_sup xf u (qmin (u + a) e) v).
Proof.
  assert (Hce : c < e) by (unfold c; qlra).
  unfold computeBoundedEventually.
  destruct (plateau_q M xf x a Rx Ha) as (z1 & l1 & l2 & E1 & B1 & B2 & S1 & N1 & F1 & F2 & D1 & V1 & O1 & (q2 & Iq & Tq)).
  { fold b e. unfold c in *. qlra. }
  { fold e. apply FB; unfold c in *; qlra. }
  rewrite E1. cbn [bind]. change (nadd (beginTime x) a) with (b + a). change (nadd (endTime x) a) with (e + a).
  change (BOTTOM M) with (- M). change (nopp a) with (- a).
  fold b in B1, D1. fold e in B2, F1, F2, D1, Tq. fold c in Tq.
  destruct shifted_rep as (z2 & E2 & C1 & C2 & X & PX & NX & HX).
  rewrite E2. cbn [bind].
  pose (Q3 := fun u v => ok u -> is_sup xf u (qmin (u + a) e) (qmax (xf u) v)).
  set (z2' := shift z2 (- a)) in *. clearbody z2'.
  assert (Bq : qmax (beginTime z2') (beginTime z1) = b) by (rewrite C1, B1; apply qmax_l; qlra).
  assert (Eq : qmin (endTime z2') (endTime z1) = e) by (rewrite C2, B2; apply qmin_l; qlra).
  assert (G3 : exists z3, computeOr z2' z1 = Ok z3 /\ qres z3 b e Q3).
  { assert (FX : Forall (fun q => time q <= c) X) by (eapply prepQ_le_end; eauto).
    assert (FX' : Forall (fun q => time q < e) X).
    { eapply Forall_impl; [|exact FX]. intros q Hq. cbn in Hq. qlra. }
    destruct HX as [HX|[HX PX']].
    - assert (Mg : merged true P b (rev (X ++ [mkS c (- M) 0])) (rev l1) e).
      { rewrite rev_app_distr. cbn [rev app].
        destruct (last_at c l1 O1) as (A & q & B & EA & TA & FB'); [eauto|].
        rewrite EA in D1, V1 |- *. rewrite rev_app_distr in D1 |- *. cbn [rev] in D1 |- *. rewrite <- app_assoc in D1 |- *. cbn [app] in D1 |- *.
        apply merged_cut; auto.
        - qlra.
        - rewrite Forall_forall in V1 |- *. intros q' J. apply V1. apply in_app_or in J. apply in_or_app.
          destruct J as [J|[<-|J]]; [right; right; apply in_rev; auto|right; left; auto|left; apply in_rev; auto].
        - apply Forall_rev. auto.
        - apply (prepQ_drepQ_aux _ X c b); auto; qlra. }
      destruct (computeOr_merged z2' z1 P Q3 (X ++ [mkS c (- M) 0]) [] l1 l2) as (z3 & E3 & R3); auto.
      + rewrite app_nil_r. auto.
      + destruct X; discriminate.
      + rewrite Eq. apply Forall_app. split; auto.
      + rewrite Eq. auto.
      + rewrite Eq. auto.
      + rewrite Bq, Eq. qlra.
      + rewrite Bq, Eq. auto.
      + rewrite Bq, Eq in R3. eauto.
    - assert (Mg : merged true P b (rev X) (rev l1) e).
      { assert (DX : drepQ true (fun u v => if Qclt_le_dec c u then v = - M else ok u -> xf (u + a) = v) b (rev X) e).
        { apply (prepQ_drepQ_aux _ X e b); auto; try qlra.
          eapply Forall_impl; [|exact FX]. intros q Hq. cbn in Hq. qlra. }
        eapply merged_impl; [exact (merged_of_drep _ _ _ _ _ _ DX _ D1)|].
        intros u v w U1 U2 [H1 H2]. cbn in U2. destruct (Qclt_le_dec c u) as [C|C].
        - subst v. apply P_B; auto.
        - apply P_A; auto. }
      destruct (computeOr_merged z2' z1 P Q3 X [] l1 l2) as (z3 & E3 & R3); auto.
      + rewrite app_nil_r. auto.
      + rewrite Eq. auto.
      + rewrite Eq. auto.
      + rewrite Eq. auto.
      + rewrite Bq, Eq. qlra.
      + rewrite Bq, Eq. auto.
      + rewrite Bq, Eq in R3. eauto. }
  destruct G3 as (z3 & E3 & [R1 R2 R3 R4 R5]). rewrite E3. cbn [bind].
  assert (Bq' : qmax (beginTime x) (beginTime z3) = b) by (rewrite R1; apply qmax_l; fold b; qlra).
  assert (Eq' : qmin (endTime x) (endTime z3) = e) by (rewrite R2; apply qmin_l; fold e; qlra).
  destruct (computeOr_q x z3 (fun u v => xf u = v) Q3 (fun u v => ok u -> is_sup xf u (qmin (u + a) e) v)) as (z & E4 & R); auto.
  - rewrite Bq', Eq'. qlra.
  - intros u v w U1 U2 <- H. exact H.
  - rewrite Bq', Eq'. qlra.
  - rewrite Bq', Eq' in R. rewrite E4. cbn [bind]. apply simplify_again; auto.
Qed.
End Bounded.
