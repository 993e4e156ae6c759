(** Until on step signals: the first value. *)
From Coq Require Import List QArith Qcanon Bool Lia.
From Verif Require Import Num Base Signal QcTac Spec Robust Repr AndProof NegProof SimplifyProof Lip BoolOps Closed SigProof ResizeProof NegTimed EvProof PlateauProof BoundedProof TimedProof UntilProof UntilTimed Front UntilFront NodeProof TreeRob StepPlateau StepSig StepOr StepBounded StepTimed StepBool.
Import ListNotations.
Local Open Scope Qc_scope.

(** The largest value that a descending list takes from [s] on. *)
Fixpoint pmax (s : Qc) (j : list smp) : Qc :=
  match j with
  | [] => 0
  | q :: j' => if nltb s (time q) then qmax (value q) (pmax s j') else value q
  end.
Definition under (w : Qc) (l : list smp) : Prop := Forall (fun q => value q <= w) l.

Lemma under_cons : forall w p l, under w (p :: l) <-> value p <= w /\ under w l.
Proof. intros w p l. unfold under. rewrite Forall_cons_iff. reflexivity. Qed.

Lemma pmax_spec : forall yf b j t, drep false yf b j t -> flat j -> desc t j -> forall s, b <= s -> s < t ->
  forall w, pmax s j <= w <-> (forall u, s <= u -> u < t -> yf u <= w).
Proof.
  intros yf b j t D. induction D as [p j t L E|p j t L1 L2 E D IH]; intros F Dj s Hb Hs w; cbn [pmax].
  - assert (B : nltb s (time p) = false) by (apply nltb_false; qlra). rewrite B. apply Forall_inv in F.
    split; intros H.
    + intros u U1 U2. rewrite (E u) by (cbn; qlra). rewrite line_flat; auto.
    + specialize (H s (Qcle_refl _) Hs). rewrite (E s) in H by (cbn; qlra). rewrite line_flat in H; auto.
  - pose proof (Forall_inv F) as Fp. pose proof (Forall_inv_tail F) as Ft. cbn beta in Fp. destruct Dj as [Dj Dj'].
    assert (V : forall u, time p <= u -> u < t -> yf u = value p) by (intros u U1 U2; rewrite (E u) by auto; apply line_flat; auto).
    destruct (nltb s (time p)) eqn:B; qb.
    + rewrite max_le, (IH Ft Dj' s Hb B w). split.
      * intros [H1 H2] u U1 U2. destruct (Qclt_le_dec u (time p)) as [C|C]; auto. rewrite V; auto.
      * intros H. split; [rewrite <- (V (time p) (Qcle_refl _) Dj); apply H; qlra|]. intros u U1 U2. apply H; auto. qlra.
    + split; intros H; [intros u U1 U2; rewrite V; auto; qlra|]. rewrite <- (V s B Hs). apply H; auto. apply Qcle_refl.
Qed.

Lemma drop_flat : forall yf b j t, drep false yf b j t -> flat j -> desc t j -> forall s, b <= s -> s < t ->
  exists q j', drop_after s j = q :: j' /\ time q <= s /\ flat (q :: j') /\
    (b < s -> drep false yf b (if neqb (time q) s then j' else q :: j') s).
Proof.
  intros yf b j t D. induction D as [p j t L E|p j t L1 L2 E D IH]; intros F Dj s Hb Hs; cbn [drop_after].
  - assert (B : nltb s (time p) = false) by (apply nltb_false; qlra). rewrite B. exists p, j. split; [auto|]. split; [qlra|]. split; [auto|].
    intros Hs'. assert (N : neqb (time p) s = false) by (apply neqb_false; intro K; rewrite K in L; qlra). rewrite N.
    apply drep_last; auto. intros u U1 U2. apply E; auto. cbn in *. qlra.
  - pose proof (Forall_inv_tail F) as Ft. destruct Dj as [Dj Dj'].
    destruct (nltb s (time p)) eqn:B; qb; [apply IH; auto|].
    exists p, j. split; [auto|]. split; [auto|]. split; [auto|]. intros Hs'.
    destruct (neqb (time p) s) eqn:B1; qb; [rewrite <- B1; auto|].
    apply drep_step; auto. intros u U1 U2. apply E; auto. cbn in *. qlra.
Qed.

Definition and_rest (p : smp) (z : list smp) (t : Qc) (c : bool) (j : list smp) : res (list smp * list smp) :=
  '(z', t', c', j') <- seg_and_loop p z t c j ;;
  sj <- deref j' ;;
  z'' <- seg_and_last p z' t' c' sj ;;
  Ok (z'', j').

Lemma min_pick : forall a b w, a <= b -> (qmin a b <= w <-> a <= w).
Proof. intros a b w H. rewrite qmin_l by auto. reflexivity. Qed.
Lemma min_pick_r : forall a b w, b <= a -> (qmin a b <= w <-> b <= w).
Proof. intros a b w H. rewrite qmin_r by auto. reflexivity. Qed.

Lemma and_rest_flat : forall p, deriv p = 0 -> forall j z t c q j', flat j -> drop_after (time p) j = q :: j' -> time p < t ->
  flat z -> Forall (later (time p)) z ->
  exists r zz, and_rest p z t c j = Ok (r :: zz, q :: j') /\ time r = time p /\ flat (r :: zz) /\ Forall (later (time p)) zz /\
    forall w, under w (r :: zz) <-> under w z /\ (c = true -> value p <= w) /\ qmin (value p) (pmax (time p) j) <= w.
Proof.
  intros p Dp. induction j as [|sj j IH]; intros z t c q j' F Dr Lt Fz Lz; cbn [drop_after] in Dr; [discriminate|].
  unfold and_rest. cbn [seg_and_loop pmax].
  pose proof (Forall_inv F) as Fj. pose proof (Forall_inv_tail F) as Ft. cbn beta in Fj.
  destruct (nltb (time p) (time sj)) eqn:B; qb.
  - unfold seg_and_body. vline. rewrite !(line_flat p) by auto. rewrite !(line_flat sj) by auto.
    assert (MM : forall w, qmin (value p) (qmax (value sj) (pmax (time p) j)) <= w <-> qmin (value p) (value sj) <= w /\ qmin (value p) (pmax (time p) j) <= w).
    { intros w. rewrite !min_le, max_le. destruct (Qclt_le_dec w (value p)); split; intuition; exfalso; qlra. }
    assert (CT : (value p <= value sj) -> exists r zz, and_rest p z (time sj) true j = Ok (r :: zz, q :: j') /\ time r = time p /\ flat (r :: zz) /\ Forall (later (time p)) zz /\
      forall w, under w (r :: zz) <-> under w z /\ (c = true -> value p <= w) /\ qmin (value p) (qmax (value sj) (pmax (time p) j)) <= w).
    { intros Le. destruct (IH z (time sj) true q j' Ft Dr B Fz Lz) as (r & zz & E & A1 & A2 & A3 & A4). exists r, zz. do 4 (split; [auto|]).
      intros w. rewrite A4, MM, (min_pick (value p) (value sj)) by auto. intuition. }
    destruct (nltb (value p) (value sj)) eqn:B1; qb.
    + assert (B2 : nltb (value sj) (value p) = false) by (apply nltb_false; qlra). rewrite B2. cbn [bind]. apply CT. qlra.
    + destruct (neqb (value p) (value sj)) eqn:B2; qb.
      * assert (B3 : nltb (value sj) (value p) = false) by (apply nltb_false; qlra). rewrite B3. cbn [bind]. apply CT. qlra.
      * cbn [bind].
        destruct (IH (mkS (time sj) (value sj) (deriv sj) :: (if c then mkS t (value p) (deriv p) :: z else z)) (time sj) false q j' Ft Dr B) as (r & zz & E & A1 & A2 & A3 & A4).
        { constructor; [auto|]. destruct c; [constructor|]; auto. }
        { constructor; [exact B|]. destruct c; [constructor|]; auto. }
        exists r, zz. do 4 (split; [auto|]).
        intros w. rewrite A4, MM, (min_pick_r (value p) (value sj)) by qlra. rewrite under_cons. cbn [value].
        destruct c; [rewrite under_cons; cbn [value]|]; intuition discriminate.
  - cbn [bind deref]. unfold seg_and_last. vline. rewrite !(line_flat p) by auto. rewrite !(line_flat sj) by auto. inversion Dr; subst q j'.
    destruct (nltb (value p) (value sj)) eqn:B1; qb.
    + assert (B2 : nltb (value sj) (value p) = false) by (apply nltb_false; qlra). rewrite B2. cbn [bind].
      exists p, z. split; [auto|]. split; [auto|]. split; [constructor; auto|]. split; [auto|].
      intros w. rewrite under_cons, min_pick by qlra. intuition.
    + destruct (neqb (value p) (value sj)) eqn:B2; qb.
      * assert (B3 : nltb (value sj) (value p) = false) by (apply nltb_false; qlra). rewrite B3. cbn [bind].
        exists p, z. split; [auto|]. split; [auto|]. split; [constructor; auto|]. split; [auto|].
        intros w. rewrite under_cons, min_pick by qlra. intuition.
      * cbn [bind]. do 2 eexists. split; [reflexivity|]. split; [reflexivity|]. split; [constructor; [auto|destruct c; [constructor|]; auto]|].
        split; [destruct c; auto|]. intros w. rewrite under_cons, min_pick_r by qlra. cbn [value].
        destruct c; [rewrite under_cons; cbn [value]|]; intuition discriminate.
Qed.

Lemma ev_rest_flat : forall s k r z t c m, flat (k ++ [r]) -> Forall (later s) k -> time r = s -> s < t -> Forall (later s) z ->
  exists v zz j, ev_rest z (k ++ [r]) s t c m = Ok (mkS s v 0 :: zz, j) /\ Forall (later s) zz /\
    forall w, v <= w <-> m <= w /\ under w (k ++ [r]).
Proof.
  intros s. induction k as [|q k IH]; intros r z t c m F L T Lt Lz; cbn [app] in *.
  - unfold ev_rest. cbn [partial_ev_loop]. assert (B : nltb s (time r) = false) by (apply nltb_false; qlra). rewrite B. cbn [bind deref].
    apply Forall_inv in F. cbn beta in F. unfold partial_ev_last. vline. rewrite line_flat by auto. rewrite F. change n0 with 0.
    assert (B0 : nleb 0 0 = true) by (apply nleb_true; qlra). rewrite B0.
    destruct (nltb m (value r)) eqn:B1; qb; cbn [bind]; do 3 eexists; (split; [reflexivity|]); (split; [destruct c; auto|]);
      intros w; rewrite under_cons; (split; [intros H; split; [|split; [|constructor]]; qlra|intros (H1 & H2 & _); auto]).
  - inversion L as [|? ? L1 L2]; subst. pose proof (Forall_inv F) as Fq. pose proof (Forall_inv_tail F) as Ft. cbn beta in Fq.
    unfold ev_rest. cbn [partial_ev_loop]. assert (B : nltb (time r) (time q) = true) by (apply nltb_true; exact L1). rewrite B.
    vline. rewrite line_flat by auto. rewrite Fq. change n0 with 0.
    assert (B0 : nleb 0 0 = true) by (apply nleb_true; qlra). rewrite B0.
    destruct (nltb m (value q)) eqn:B1; qb; cbn [bind].
    + destruct (IH r (if c then mkS t m 0 :: z else z) (time q) true (value q) Ft L2 eq_refl L1) as (v & zz & j & E & A1 & A2); [destruct c; auto|].
      exists v, zz, j. split; [exact E|]. split; [auto|]. intros w. rewrite A2, under_cons. split; [intros [H1 H2]; split; [qlra|auto]|intros (H1 & H2 & H3); auto].
    + destruct (IH r z (time q) true m Ft L2 eq_refl L1 Lz) as (v & zz & j & E & A1 & A2).
      exists v, zz, j. split; [exact E|]. split; [auto|]. intros w. rewrite A2, under_cons. split; [intros [H1 H2]; split; [qlra|split; [qlra|auto]]|intros (H1 & H2 & H3); auto].
Qed.

Lemma segment_until_flat : forall M yf b z p t j m, deriv p = 0 -> drep false yf b j t -> flat j -> desc t j -> b <= time p -> time p < t ->
  Forall (later (time p)) z ->
  exists r zz, computeSegmentUntil M z p t j m = Ok (r :: zz, drop_after (time p) j) /\ time r = time p /\ Forall (later (time p)) zz /\
    forall w, value r <= w <-> qmin m (value p) <= w /\ - M <= w /\ qmin (value p) (pmax (time p) j) <= w.
Proof.
  intros M yf b z p t j m Dp D F Dj Hb Lt Lz. unfold computeSegmentUntil. rewrite Dp. change n0 with 0.
  assert (B0 : nleb 0 0 = true) by (apply nleb_true; qlra). rewrite B0.
  destruct (drop_flat yf b j t D F Dj (time p) Hb Lt) as (q & j' & Dr & _).
  destruct (and_rest_flat p Dp j [] t false q j' F Dr Lt) as (r1 & z1 & E1 & A1 & A2 & A3 & A4); [constructor|constructor|].
  change (computeSegmentAnd [] p t j) with (and_rest p [] t false j). rewrite E1. cbn [bind rev].
  destruct (ev_rest_flat (time p) (rev z1) r1 [] t false (- M)) as (v & z2 & i2 & E2 & B1 & B2); auto.
  { unfold flat in *. inversion A2; subst. apply Forall_app. split; [apply Forall_rev; auto|constructor; auto]. }
  { apply Forall_rev. auto. }
  change (computePartialEventually M [] (rev z1 ++ [r1]) (time p) t) with (ev_rest [] (rev z1 ++ [r1]) (time p) t false (- M)). rewrite E2. cbn [bind].
  destruct (seg_or_front (time p) (mkS (time p) (fmin m (valueAt p t)) 0) t (rev (mkS (time p) v 0 :: z2)) z v) as (r & z' & q3 & j3 & E3 & C1 & C2 & C3); auto.
  { apply (front_stj (time p) (mkS (time p) v 0)); auto. }
  rewrite E3. cbn [bind]. rewrite Dr. exists r, z'. split; [auto|]. split; [auto|]. split; [auto|].
  intros w. rewrite C2. cbn [value]. rewrite fmin_q. vline. rewrite line_flat by auto. rewrite max_le, B2.
  assert (U : under w (rev z1 ++ [r1]) <-> under w (r1 :: z1)).
  { change (rev z1 ++ [r1]) with (rev (r1 :: z1)). unfold under. split; intros H.
    - apply Forall_rev in H. rewrite rev_involutive in H. exact H.
    - apply Forall_rev. exact H. }
  rewrite U, A4. split; [intros (H1 & H2 & _ & _ & H3); auto|intros (H1 & H2 & H3)]. repeat split; auto; [constructor|discriminate].
Qed.

(** ** The sweep *)
Section Sweep.
Variables (M : Qc) (xf yf : Qc -> Qc) (b e : Qc) (I : Qc -> Qc -> Qc).
Hypothesis HI : forall u t, b <= u -> u <= t -> t <= e -> is_inf xf u t (I u t).
Hypothesis XB : forall u, b <= u -> u <= e -> - M <= xf u.

(** [m] is the supremum of until over [[t,e[]. *)
Definition sofar (t m : Qc) : Prop := forall w, m <= w <-> - M <= w /\ forall u, t <= u -> u < e -> qmin (yf u) (I t u) <= w.

Lemma sofar_step : forall s t xi Y m v, b <= s -> s < t -> t <= e -> (forall u, s <= u -> u < t -> xf u = xi) -> sofar t m ->
  (forall w, Y <= w <-> forall u, s <= u -> u < t -> yf u <= w) ->
  (forall w, v <= w <-> qmin m xi <= w /\ - M <= w /\ qmin xi Y <= w) -> sofar s v.
Proof.
  intros s t xi Y m v Hb Hs Ht X K HY HV w. rewrite HV.
  assert (X0 : - M <= xi) by (rewrite <- (X s (Qcle_refl _) Hs); apply XB; qlra).
  assert (I1 : forall u, s <= u -> u < t -> I s u = xi).
  { intros u U1 U2. apply (is_inf_unique xf s u); [apply HI; qlra|]. split; [intros r R1 R2; rewrite X by qlra; apply Qcle_refl|].
    intros c C. rewrite <- (X s) by qlra. apply C; qlra. }
  assert (I2 : forall u, t <= u -> u < e -> I s u = qmin xi (I t u)).
  { intros u U1 U2. apply (is_inf_unique xf s u); [apply HI; qlra|]. destruct (HI t u) as [A1 A2]; try qlra. split.
    - intros r R1 R2. apply min_le. destruct (Qclt_le_dec r t) as [C|C]; [left; rewrite X by qlra; apply Qcle_refl|right; apply A1; qlra].
    - intros c C. apply le_min. split; [rewrite <- (X s) by qlra; apply C; qlra|]. apply A2. intros r R1 R2. apply C; qlra. }
  split.
  - intros (H1 & H2 & H3). split; auto. intros u U1 U2. rewrite min_le in H1, H3. rewrite min_le.
    destruct (Qclt_le_dec u t) as [C|C].
    + rewrite I1 by auto. destruct H3 as [H3|H3]; [auto|left]. apply (proj1 (HY w) H3); auto.
    + rewrite I2 by auto. rewrite min_le. destruct H1 as [H1|H1]; [|auto].
      apply K in H1. destruct H1 as [_ H1]. specialize (H1 u C U2). rewrite min_le in H1. tauto.
  - intros [H2 H]. destruct (Qclt_le_dec w xi) as [C|C]; [|rewrite !min_le; auto]. rewrite !min_le. split; [left|split; [auto|right]].
    + apply K. split; auto. intros u U1 U2. specialize (H u ltac:(qlra) U2). rewrite I2 in H by auto. rewrite !min_le in H. rewrite min_le.
      destruct H as [H|[H|H]]; auto. exfalso; qlra.
    + apply HY. intros u U1 U2. specialize (H u U1 ltac:(qlra)). rewrite I1, min_le in H by auto. destruct H as [H|H]; auto. exfalso; qlra.
Qed.

Lemma until_loop_flat : forall i j z t m, drep false xf b i t -> flat i -> desc t i -> drep false yf b j t -> flat j -> desc t j ->
  b < t -> t <= e -> sofar t m -> Forall (fun q => t <= time q) z ->
  exists r z', until_loop M z i j b t m = Ok (r :: z') /\ time r = b /\ Forall (later b) z' /\ sofar b (value r).
Proof.
  intros i j z t m DX. revert j z m. induction DX as [p i t L E|p i t L1 L2 E DX IH]; intros j z m Fi Di DY Fj Dj Hb Ht K G; cbn [until_loop];
    pose proof (Forall_inv Fi) as Fp; pose proof (Forall_inv_tail Fi) as Ft; cbn beta in Fp.
  - assert (G' : Forall (later b) z) by (eapply Forall_impl; [|exact G]; unfold later; cbn beta; intros; qlra).
    qcase; [exfalso; qlra|].
    assert (X : forall p', deriv p' = 0 -> time p' = b -> value p' = value p ->
      exists r z', bind (computeSegmentUntil M z p' t j m) (fun '(z', _) => Ok z') = Ok (r :: z') /\ time r = b /\ Forall (later b) z' /\ sofar b (value r)).
    { intros p' D' T' V'. destruct (segment_until_flat M yf b z p' t j m) as (r & zz & E1 & A1 & A2 & A3); rewrite ?T' in *; auto; try qlra.
      rewrite E1. cbn [bind]. exists r, zz. split; [auto|]. split; [auto|]. split; [auto|].
      apply (sofar_step b t (value p) (pmax b j) m); auto; try qlra.
      - intros u U1 U2. rewrite (E u) by auto. apply line_flat. auto.
      - apply (pmax_spec yf b); auto. qlra.
      - intros w. rewrite A3, V'. reflexivity. }
    qcase; [apply X; auto|]. apply X; auto. cbn [value]. vline. apply line_flat. auto.
  - destruct Di as [Di Di']. qcase; [|exfalso; qlra].
    destruct (segment_until_flat M yf b z p t j m) as (r & zz & E1 & A1 & A2 & A3); auto; try qlra.
    { eapply Forall_impl; [|exact G]. unfold later. cbn beta. intros; qlra. }
    destruct (drop_flat yf b j t DY Fj Dj (time p)) as (q & j' & D1 & D2 & D3 & D4); auto; try qlra.
    rewrite E1. cbn [bind deref]. rewrite D1. cbn [bind deref].
    change (tl (q :: j')) with j'.
    apply IH; auto; try qlra.
    + destruct (neqb (time q) (time p)); auto. apply Forall_inv_tail in D3. auto.
    + eapply desc_drop; eauto.
    + apply (sofar_step (time p) t (value p) (pmax (time p) j) m); auto; try qlra.
      * intros u U1 U2. rewrite (E u) by auto. apply line_flat. auto.
      * apply (pmax_spec yf b); auto. qlra.
    + constructor; [rewrite A1; apply Qcle_refl|]. eapply Forall_impl; [|exact A2]. unfold later. cbn beta. intros; qlra.
Qed.
End Sweep.

Lemma step_lt : forall x f b e, step x f -> beginTime x <= b -> endTime x = e -> b < e ->
  exists l1 l2, samples x = l1 ++ l2 /\ l1 <> [] /\ Forall (fun q => time q < e) l1 /\ Forall (fun q => e <= time q) l2 /\
    drep false f b (rev l1) e /\ flat (rev l1) /\ desc e (rev l1).
Proof.
  intros x f b e [I Z (p & l & E & T) En Ev] B Ex L.
  destruct (split_lt e (samples x)) as (l1 & l2 & K & F1 & F2); [apply increasing_ordered; auto|].
  assert (P : exists p l, l1 = p :: l /\ time p <= b).
  { rewrite E in K. destruct l1 as [|p1 l1]; cbn [app] in K.
    - subst l2. inversion F2; subst. exfalso. qlra.
    - inversion K; subst. do 2 eexists. split; [reflexivity|]. qlra. }
  rewrite K in I, Z, Ev. exists l1, l2. split; [auto|]. split; [destruct P as (? & ? & -> & _); discriminate|]. split; [auto|]. split; [auto|].
  assert (I1 : increasing l1) by (apply increasing_app in I; auto).
  split; [|split].
  - apply drep_of_eval; auto.
    + apply increasing_ordered. auto.
    + eapply Forall_impl; [|exact F1]. cbn beta. intros; qlra.
    + intros u U1 U2. specialize (Ev u ltac:(qlra) ltac:(qlra)). rewrite eval_app in Ev.
      assert (N : eval l2 u = None) by (apply eval_none; eapply Forall_lt_le; eauto). rewrite N in Ev. auto.
  - apply flat_rev. unfold flat in *. rewrite Forall_app in Z. apply Z.
  - apply desc_rev; auto.
Qed.

Lemma eval_mono : forall (l : list smp) u r, u <= r -> eval l r = None -> eval l u = None.
Proof.
  induction l as [|p l IH]; intros u r H E; cbn [eval] in *; auto. destruct (eval l r) eqn:E1; [discriminate|].
  rewrite (IH u r H E1). destruct (nleb (time p) r) eqn:B; [discriminate|]. qb.
  assert (B' : nleb (time p) u = false) by (apply nleb_false; qlra). rewrite B'. auto.
Qed.
Lemma eval_flat : forall l, flat l -> forall r v, eval l r = Some v -> exists q, In q l /\ time q <= r /\ forall u, time q <= u -> u <= r -> eval l u = Some v.
Proof.
  induction l as [|p l IH]; intros F r v E; cbn [eval] in E; [discriminate|].
  pose proof (Forall_inv F) as Fp. apply Forall_inv_tail in F. cbn beta in Fp. destruct (eval l r) as [v'|] eqn:E1.
  - inversion E; subst v'. destruct (IH F r v E1) as (q & J & T & H). exists q. split; [right; auto|]. split; [auto|].
    intros u U1 U2. cbn [eval]. rewrite H by auto. auto.
  - destruct (nleb (time p) r) eqn:B; [|discriminate]. qb. exists p. split; [left; auto|]. split; [auto|].
    intros u U1 U2. cbn [eval]. rewrite (eval_mono l u r U2 E1). assert (B' : nleb (time p) u = true) by (apply nleb_true; auto). rewrite B'.
    rewrite <- E, !line_flat by auto. auto.
Qed.
Lemma lowest_step : forall x f, step x f -> forall u t, beginTime x <= u -> u <= t -> t <= endTime x -> is_inf f u t (lowest f (samples x) u t).
Proof.
  intros x f S u t U1 U2 U3. destruct (lowest_le f (samples x) u t) as (A & B & C). split.
  - intros r R1 R2. pose proof (st_eval _ _ S r ltac:(qlra) ltac:(qlra)) as Er.
    destruct (eval_flat _ (st_flat _ _ S) r _ Er) as (q & J & T & H).
    destruct (Qclt_le_dec (time q) u) as [L|L].
    + assert (K : f u = f r); [|rewrite <- K; auto]. specialize (H u ltac:(qlra) R1). rewrite (st_eval _ _ S) in H by qlra. congruence.
    + assert (K : f (time q) = f r); [|rewrite <- K; apply C; auto; qlra]. specialize (H (time q) (Qcle_refl _) T). rewrite (st_eval _ _ S) in H by qlra. congruence.
  - intros w W. destruct (lowest_attained f (samples x) u t U2) as (r & R1 & R2 & ->). auto.
Qed.

(** ** Until on whole signals *)
Lemma until_step_front : forall M xf yf x y b e, step x xf -> step y yf -> beginTime x <= b -> beginTime y = b -> endTime x = e -> endTime y = e -> b < e ->
  (forall u, b <= u -> u <= e -> - M <= xf u) ->
  exists z v, computeUntil M x y = Ok z /\ beginTime z = b /\ endTime z = e /\ jfront b v z /\
    sofar M yf e (lowest xf (samples x)) b v.
Proof.
  intros M xf yf x y b e Sx Sy Bx By Ex Ey L XB.
  destruct (step_lt x xf b e Sx Bx Ex L) as (x1 & x2 & X1 & X2 & X3 & X4 & X5 & X6 & X7).
  destruct (step_lt y yf b e Sy ltac:(rewrite By; apply Qcle_refl) Ey L) as (y1 & y2 & Y1 & Y2 & Y3 & Y4 & Y5 & Y6 & Y7).
  destruct (until_loop_flat M xf yf b e (lowest xf (samples x))) with (i := rev x1) (j := rev y1) (z := @nil smp) (t := e) (m := - M) as (r & z & E & A1 & A2 & A3); auto; try qlra.
  { intros u t U1 U2 U3. apply lowest_step; auto; qlra. }
  { intros w. split; [intros H; split; auto; intros; exfalso; qlra|tauto]. }
  destruct (jfront_simplify b (value r) r z b e) as (z' & S1 & S2 & S3 & S4); auto; try qlra.
  { apply good_here. auto. }
  { apply sp_later. auto. }
  exists z', (value r). unfold computeUntil. cbv zeta. rewrite fmax_q, fmin_q, Ex, Ey, By, qmax_r, TreeRob.qmin_same by auto.
  rewrite X1, Y1, !skip_unguarded_split by auto. cbn [bind]. change (BOTTOM M) with (- M). rewrite E. cbn [bind].
  rewrite <- X1. auto.
Qed.

(** The window from its parts, the data ending with the window or after it. *)
Lemma step_window : forall M yf h s c e Y U, 0 <= c -> s + c <= e -> s < e -> - M <= Y ->
  (forall u u', s <= u -> u <= u' -> u' <= e -> h u' <= h u) ->
  (s + c = e -> quiet yf s e) -> is_sup yf s (s + c) Y -> (forall w, U <= w <-> - M <= w /\ forall u, s <= u -> u < e -> qmin (yf u) (h u) <= w) ->
  (forall u, s <= u -> u <= e -> - M <= qmin (yf u) (h u)) ->
  is_sup (fun u => qmin (yf u) (h u)) s (s + c) (qmin Y U).
Proof.
  intros M yf h s c e Y U C SC SE MY Hh Q [Y1 Y2] HU LB. destruct (proj1 (HU U) (Qcle_refl _)) as [U0 U1]. split.
  - intros u H1 H2. apply le_min. split; [apply min_le; left; auto|].
    destruct (Qclt_le_dec u e) as [L|L]; [auto|]. assert (u = e) by qlra. subst u. destruct (Q ltac:(qlra)) as [K|(d & D1 & D2)]; [exfalso; qlra|].
    assert (exists r, s <= r /\ e - d <= r /\ r < e) as (r & R1 & R2 & R3).
    { destruct (Qclt_le_dec (e - d) s) as [K|K]; [exists s|exists (e - d)]; repeat split; try qlra; apply Qcle_refl. }
    eapply Qcle_trans; [|apply (U1 r R1 R3)]. rewrite (D2 r) by qlra. specialize (Hh r e R1 ltac:(qlra) (Qcle_refl _)).
    apply le_min. split; apply min_le; [left; apply Qcle_refl|right; auto].
  - intros w W. apply min_le. destruct (Qclt_le_dec w Y) as [LY|LY]; [|auto]. right. apply HU. split.
    { specialize (LB s (Qcle_refl _) ltac:(qlra)). specialize (W s (Qcle_refl _) ltac:(qlra)). qlra. }
    intros u H1 H2. destruct (Qclt_le_dec (s + c) u) as [Lu|Lu]; [|apply W; auto].
    destruct (Qclt_le_dec w (qmin (yf u) (h u))) as [L|L]; [|auto]. exfalso.
    assert (Y <= w); [|qlra]. apply Y2. intros r R1 R2. specialize (W r R1 R2).
    apply min_le in W. destruct W as [W|W]; auto. exfalso.
    specialize (Hh r u ltac:(qlra) ltac:(qlra) ltac:(qlra)). destruct (qmin_cases (yf u) (h u)) as [[E ?]|[E ?]]; rewrite E in L; qlra.
Qed.

(** ** The timed operator *)
Lemma first_jfront : forall z p l, samples z = p :: l -> time p = beginTime z -> increasing (samples z) -> beginTime z <= endTime z ->
  jfront (beginTime z) (value p) z.
Proof.
  intros z p l E Tp I L. split; [apply Qcle_refl|]. split; [exact L|]. exists p, l. split; [exact E|]. split; [exact Tp|]. split.
  - unfold Front.good, line. rewrite Tp. split; [apply Qcle_refl|]. split; [reflexivity|ring].
  - apply sp_later. rewrite E in I. destruct I as [I _]. unfold later. rewrite <- Tp. exact I.
Qed.
Lemma hstep_jfront : forall z b e g, hstep z b e g -> b < e -> jfront b (g b) z.
Proof.
  intros z b e g [<- <- I Z (p & l & E & Tp) _ V] L. pose proof (first_jfront z p l E Tp I ltac:(qlra)) as J.
  replace (g (beginTime z)) with (value p); auto.
  specialize (V (beginTime z) (Qcle_refl _) L). rewrite E in V, I. destruct I as [I _].
  rewrite eval_cons_all in V; [|rewrite <- Tp; exact I|qlra]. unfold line in V. rewrite Tp in V.
  injection V as <-. ring.
Qed.

Lemma bounded_first_alw : forall M a f x, step x f -> 0 < a -> beginTime x + a <= endTime x ->
  (forall u, beginTime x <= u -> u <= endTime x -> f u <= M) ->
  exists z g, computeBoundedGlobally M x a = Ok z /\ hstep z (beginTime x) (endTime x) g /\
    is_inf f (beginTime x) (beginTime x + a) (g (beginTime x)).
Proof.
  intros M a f x S A L B.
  assert (H : computeBoundedGlobally M x a = rmap cnot (computeBoundedEventually M (cnot x) a)).
  { rewrite <- boundedGlobally_neg, cnot_cnot. reflexivity. }
  rewrite H. clear H.
  destruct (bounded_first M a (fun u => - f u) (cnot x) (step_neg _ _ S) A L) as (z & g & E & Hs & V).
  { intros u U1 U2. specialize (B u U1 U2). qlra. }
  rewrite E. exists (cnot z), (fun u => - g u). split; [reflexivity|]. split.
  - destruct Hs as [A1 A2 A3 A4 (p & l & A5 & A6) A7 A8]. constructor; cbn [compute_not samples beginTime endTime]; auto.
    + clear - A3. induction (samples z) as [|q l IH]; cbn; auto. destruct A3 as [I1 I2]. split; auto. rewrite Forall_map. exact I1.
    + unfold flat in *. rewrite Forall_map. eapply Forall_impl; [|exact A4]. cbn. intros q K. rewrite K. reflexivity.
    + exists (neg p), (negl l). rewrite A5. split; [reflexivity|exact A6].
    + rewrite Forall_map. exact A7.
    + intros u U1 U2. rewrite eval_neg, A8 by auto. reflexivity.
  - apply is_sup_neg in V. exact V.
Qed.

Lemma timed_until_step : forall M self xf yf x y a d s e, step x xf -> step y yf -> beginTime x = s -> beginTime y = s + a ->
  endTime x = e + d -> endTime y = e + d -> 0 <= a -> a < d -> 0 <= s -> s <= e ->
  (forall u, s <= u -> u <= e + d -> - M <= xf u /\ xf u <= M) -> (forall u, s + a <= u -> u <= e + d -> - M <= yf u) ->
  (s = e -> quiet yf (s + a) (e + d)) ->
  exists z v, compute_timed_until M self x y a d = Ok z /\ beginTime z = s /\ jfront s v z /\ windowQ xf yf a d (e + d) s v.
Proof.
  intros M self xf yf x y a d s e Sx Sy Bx By Ex Ey A0 Ad S0 Se XB YB QT.
  unfold compute_timed_until. cbv zeta.
  destruct (st_front _ _ Sx) as (px & lx & Px & _). destruct (st_front _ _ Sy) as (py & ly & Py & _). rewrite Px, Py.
  replace (smin (endTime x) (endTime y)) with (e + d) by (rewrite std_min, Ex, Ey, TreeRob.qmin_same; auto).
  assert (LD : nltb (e + d) d = false) by (apply nltb_false; qlra). rewrite LD.
  unfold computeTimedUntil. change (nsub d a) with (d - a). change (nopp a) with (- a). change n0 with 0.
  pose (I := lowest xf (samples x)).
  assert (HI : forall u t, s <= u -> u <= t -> t <= e + d -> is_inf xf u t (I u t)).
  { intros u t H1 H2 H3. apply lowest_step; auto; [rewrite Bx|rewrite Ex]; auto. }
  destruct (bounded_first M (d - a) yf y Sy ltac:(qlra) ltac:(rewrite By, Ey; qlra)) as (z2 & g2 & E2 & H2 & V2).
  { rewrite By, Ey. auto. }
  rewrite E2. cbn [bind]. rewrite By, Ey in H2. rewrite By in V2. pose proof (hstep_jfront _ _ _ _ H2 ltac:(qlra)) as J2.
  destruct (until_step_front M xf yf x y (s + a) (e + d) Sx Sy ltac:(rewrite Bx; qlra) By Ex Ey ltac:(qlra)) as (z3 & v3 & E3 & B3 & N3 & J3 & V3).
  { intros u U1 U2. apply XB; qlra. }
  rewrite E3. cbn [bind].
  destruct (jfront_And (s + a) (g2 (s + a)) v3 z2 z3) as (z4 & E4 & B4 & N4 & J4); auto.
  { rewrite (hs_begin _ _ _ _ H2), (hs_endt _ _ _ _ H2), B3, N3, TreeRob.qmax_same, TreeRob.qmin_same. qlra. }
  rewrite (hs_begin _ _ _ _ H2), B3, TreeRob.qmax_same in B4. rewrite (hs_endt _ _ _ _ H2), N3, TreeRob.qmin_same in N4.
  rewrite E4. cbn [bind].
  assert (W4 : is_sup (fun u => qmin (yf u) (I (s + a) u)) (s + a) (qmin (s + d) (e + d)) (qmin (g2 (s + a)) v3)).
  { rewrite TreeRob.qmin_l by qlra. replace (s + d) with (s + a + (d - a)) by ring.
    apply (step_window M yf (I (s + a)) (s + a) (d - a) (e + d)); try qlra.
    - destruct V2 as [V2 _]. eapply Qcle_trans; [apply (YB (s + a)); qlra|]. apply V2; qlra.
    - intros u u' U1 U2 U3. apply (inf_anti xf s (e + d) I HI); qlra.
    - intros K. apply QT. qlra.
    - exact V2.
    - exact V3.
    - intros u U1 U2. apply le_min. split; [apply YB; auto|]. destruct (HI (s + a) u ltac:(qlra) U1 U2) as [_ K].
      apply K. intros r R1 R2. apply XB; qlra. }
  set (K4 := qmin (g2 (s + a)) v3) in *. clearbody K4.
  qtest (nltb 0 a).
  - destruct (bounded_first_alw M a xf x Sx ltac:(auto) ltac:(rewrite Bx, Ex; qlra)) as (z1 & g1 & E1 & H1 & V1).
    { rewrite Bx, Ex. intros u U1 U2. apply XB; auto. }
    rewrite E1. cbn [bind]. rewrite Bx, Ex in H1. rewrite Bx in V1. pose proof (hstep_jfront _ _ _ _ H1 ltac:(qlra)) as J1.
    apply (jfront_shift _ _ _ (- a)) in J4. replace (s + a + - a) with s in J4 by ring.
    assert (Bs : beginTime (shift z4 (- a)) = s) by (unfold shift; cbn [beginTime]; rewrite B4; change (nadd (s + a) (- a)) with (s + a + - a); ring).
    assert (Es : endTime (shift z4 (- a)) = e + d - a) by (unfold shift; cbn [endTime]; rewrite N4; reflexivity).
    destruct (jfront_And s _ _ _ _ J1 J4) as (z & E5 & B5 & N5 & J5).
    { rewrite (hs_begin _ _ _ _ H1), (hs_endt _ _ _ _ H1), Bs, Es, TreeRob.qmax_same, qmin_r by qlra. qlra. }
    rewrite (hs_begin _ _ _ _ H1), Bs, TreeRob.qmax_same in B5.
    exists z, (qmin (g1 s) K4). split; [auto|]. split; [auto|]. split; [auto|].
    apply (window_parts xf yf s (e + d) I HI); auto; qlra.
  - assert (AZ : a = 0) by qlra.
    assert (J1 : jfront s (xf s) x).
    { rewrite <- Bx. destruct (st_front _ _ Sx) as (p & l & P1 & P2). rewrite <- P2 at 2.
      rewrite <- (step_value _ _ Sx p) by (rewrite P1; left; reflexivity). eapply first_jfront; eauto; [apply Sx|qlra]. }
    replace (s + a) with s in J4, B4 by (rewrite AZ; ring).
    destruct (jfront_And s _ _ _ _ J1 J4) as (z & E5 & B5 & N5 & J5).
    { rewrite Bx, Ex, B4, N4, TreeRob.qmax_same, TreeRob.qmin_same. qlra. }
    rewrite Bx, B4, TreeRob.qmax_same in B5.
    exists z, (qmin (xf s) K4). split; [auto|]. split; [auto|]. split; [auto|].
    apply (window_parts xf yf s (e + d) I HI); auto; try qlra.
    replace (s + a) with s by (rewrite AZ; ring). split; [intros r R1 R2; replace r with s by qlra; qlra|intros r R; apply R; qlra].
Qed.
