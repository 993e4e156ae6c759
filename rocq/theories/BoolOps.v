(** compute_and / compute_or / computeAnd / computeOr on signals. *)
From Coq Require Import List QArith Qcanon Bool Lia.
From Verif Require Import Num Base Signal QcTac Spec Robust Repr AndProof NegProof SimplifyProof Lip.
Import ListNotations.
Local Open Scope Qc_scope.

(** Value at [e] of the line of the last sample strictly before [e] (or of the
    first sample if there is none). *)
Definition left_at (l : list smp) (e v : Qc) : Prop :=
  exists l1 p l2, l = l1 ++ p :: l2 /\ (time p < e \/ l1 = []) /\
    Forall (fun q => e <= time q) l2 /\ v = line p e.

Lemma skip_guarded_ok : forall e l, l <> [] ->
  exists l1 p l2, l = l1 ++ p :: l2 /\ skip_guarded e (rev l) = Ok (rev (l1 ++ [p])) /\
    (time p < e \/ l1 = []) /\ Forall (fun q => e <= time q) l2.
Proof.
  intros e l. induction l as [|q l IH] using rev_ind; intros Hl; [congruence|].
  rewrite rev_app_distr. cbn [rev app]. cbn [skip_guarded].
  qcase.
  - destruct (rev l) as [|a r] eqn:R.
    + assert (l = []) by (rewrite <- (rev_involutive l), R; reflexivity). subst l.
      exists [], q, []. repeat split; auto.
    + destruct IH as (l1 & p & l2 & E1 & E2 & E3 & E4).
      { intro. subst l. discriminate. }
      exists l1, p, (l2 ++ [q]). rewrite E1, <- app_assoc. split; auto. split.
      * exact E2.
      * split; auto. rewrite Forall_app. auto.
  - exists l, q, []. split; auto. split; [|split]; auto. rewrite rev_app_distr. reflexivity.
Qed.

Lemma skip_unguarded_ok : forall e p0 l0, time p0 < e ->
  exists l1 p l2, p0 :: l0 = l1 ++ p :: l2 /\ skip_unguarded e (rev (p0 :: l0)) = Ok (rev (l1 ++ [p])) /\
    time p < e /\ Forall (fun q => e <= time q) l2.
Proof.
  intros e p0 l0 H0. induction l0 as [|q l IH] using rev_ind.
  - exists [], p0, []. split; auto. split; auto. cbn [rev app skip_unguarded].
    qcase; [exfalso; qlra|reflexivity].
  - rewrite app_comm_cons, rev_app_distr. cbn [rev app]. cbn [skip_unguarded].
    qcase.
    + destruct IH as (l1 & p & l2 & E1 & E2 & E3 & E4).
      exists l1, p, (l2 ++ [q]). rewrite app_comm_cons, E1, <- app_assoc. split; auto. split.
      * exact E2.
      * split; auto. rewrite Forall_app. auto.
    + exists (p0 :: l), q, []. split; auto. split; [|split]; auto.
      cbn [app rev]. rewrite rev_app_distr. reflexivity.
Qed.

Lemma left_at_split : forall l1 p l2 e v, left_at (l1 ++ p :: l2) e v -> 
  (time p < e \/ l1 = []) -> Forall (fun q => e <= time q) l2 -> v = line p e.
Proof.
  intros l1 p l2 e v (m1 & q & m2 & E & Hq & F & ->) Hp F'.
  assert (EE : l1 ++ p :: l2 = m1 ++ q :: m2) by auto.
  revert m1 E EE Hq. induction l1 as [|a l1 IH]; intros m1 E EE Hq.
  - destruct m1 as [|a m1]; cbn [app] in E; inversion E; subst; auto.
    exfalso. rewrite Forall_app in F'. destruct F' as [_ F']. inversion F'; subst.
    destruct Hq; [qlra|discriminate].
  - destruct m1 as [|a' m1]; cbn [app] in E; inversion E; subst.
    + exfalso. rewrite Forall_app in F. destruct F as [_ F]. inversion F; subst.
      destruct Hp; [qlra|discriminate].
    + destruct l1 as [|b1 l1].
      * destruct m1 as [|b2 m1]; cbn [app] in H1; inversion H1; subst; auto.
        exfalso. rewrite Forall_app in F'. destruct F' as [_ F']. inversion F'; subst.
        destruct Hq; [qlra|discriminate].
      * apply (IH) with (m1 := m1); auto.
        -- destruct Hp as [Hp|Hp]; [auto|discriminate].
        -- destruct Hq as [Hq|Hq]; [auto|discriminate].
Qed.

Lemma left_at_exists : forall l e, l <> [] -> exists v, left_at l e v.
Proof.
  intros l e H. destruct (skip_guarded_ok e l H) as (l1 & p & l2 & E1 & _ & E3 & E4).
  exists (line p e). exists l1, p, l2. auto.
Qed.

(** The descending list left by the skip. *)
Lemma skip_drep : forall l l1 p l2 b e f p0 l0,
  ordered l -> l = p0 :: l0 -> time p0 <= b -> b <= e ->
  l = l1 ++ p :: l2 -> (time p < e \/ l1 = []) -> Forall (fun q => e <= time q) l2 ->
  (forall u, b <= u -> u < e -> eval l u = Some (f u)) ->
  drep false f b (rev (l1 ++ [p])) e /\ hd_lt b e (rev (l1 ++ [p])) /\
  (forall u, b <= u -> time p <= u -> u < e -> f u = line p u).
Proof.
  intros l l1 p l2 b e f p0 l0 O El H0 Hbe E Hp F HE.
  assert (Hpe : time p <= e).
  { destruct Hp as [Hp| ->]; [qlra|]. rewrite El in E. cbn in E. inversion E; subst. qlra. }
  assert (O' : ordered (l1 ++ [p])).
  { rewrite E in O. assert (K : l1 ++ p :: l2 = (l1 ++ [p]) ++ l2) by (rewrite <- app_assoc; reflexivity).
    rewrite K in O. rewrite ordered_app in O. apply O. }
  assert (HE' : forall u, b <= u -> u < e -> eval (l1 ++ [p]) u = Some (f u)).
  { intros u U1 U2. rewrite <- HE by auto. rewrite E.
    assert (K : l1 ++ p :: l2 = (l1 ++ [p]) ++ l2) by (rewrite <- app_assoc; reflexivity).
    rewrite K, (eval_app (l1 ++ [p]) l2). assert (N : eval l2 u = None) by (apply eval_none; eapply Forall_lt_le; eauto).
    rewrite N. auto. }
  split; [|split].
  - apply drep_of_eval; auto.
    + destruct l1 as [|a l1]; cbn [app] in *; rewrite El in E; inversion E; subst; eauto.
    + rewrite Forall_forall. intros q Hq. rewrite ordered_app in O'. destruct O' as (_ & _ & O').
      apply in_app_or in Hq. destruct Hq as [Hq|[<-|[]]]; auto.
      specialize (O' q p Hq (or_introl eq_refl)). qlra.
  - intros q j' Eq. rewrite rev_app_distr in Eq. cbn in Eq. inversion Eq; subst q.
    destruct Hp as [Hp| ->]; auto. right. rewrite El in E. cbn in E. inversion E; subst. auto.
  - intros u U1 U2 U3. specialize (HE' u U1 U3). rewrite eval_back in HE' by auto. inversion HE'. auto.
Qed.

(** Both ends at the same point. *)
Lemma partial_and_point : forall p i q j b, time p <= b -> time q <= b ->
  exists r, computePartialAnd [] (p :: i) (q :: j) b b = Ok [r] /\ time r = b /\
    line r b = qmin (line p b) (line q b).
Proof.
  intros p i q j b Hp Hq.
  assert (G : forall p', time p' = b -> (forall u, line p' u = line p u) ->
    exists r, (' (z', _) <- computeSegmentAnd [] p' b (q :: j);; Ok z') = Ok [r] /\ time r = b /\
    line r b = qmin (line p b) (line q b)).
  { intros p' Hp' L. unfold computeSegmentAnd. cbn [seg_and_loop].
    qcase; [exfalso; qlra|]. cbn [bind deref]. unfold seg_and_last. cbv zeta. vline.
    rewrite Hp'. rewrite <- (line_at p'), Hp', !L.
    qcase; [qcase; [exfalso; qlra|]|qtest (neqb (line p b) (line q b)); [qcase; try (exfalso; qlra)|]].
    - cbn [bind]. exists p'. split; auto. split; auto. rewrite L, qmin_l; auto; qlra.
    - cbn [bind]. exists p'. split; auto. split; auto. rewrite L, qmin_l; auto; qlra.
    - cbn [bind]. eexists. split; [reflexivity|]. split; [reflexivity|].
      rewrite line_cut, qmin_r; auto. }
  cbn [computePartialAnd]. qcase; [exfalso; qlra|]. qcase.
  - apply G; auto.
  - apply G; auto. intros u. vline. apply line_cut.
Qed.

Record and_result (z : signal Qc) (b e : Qc) (f : Qc -> Qc) (ve : Qc) : Prop := {
  ar_begin : beginTime z = b;
  ar_end : endTime z = e;
  ar_front : exists p l, samples z = p :: l /\ time p = b /\ Forall (fun q => b < time q) l;
  ar_ord : ordered (samples z);
  ar_le : Forall (fun q => time q <= e) (samples z);
  ar_val : forall u, b <= u -> u < e -> eval (samples z) u = Some (f u);
  ar_at_end : eval (samples z) e = Some ve
}.

Lemma fmax_q : forall a b : Qc, fmax a b = qmax a b.
Proof.
  intros a b. unfold fmax. destruct (qmax_cases a b) as [[-> H]|[-> H]]; qcase; auto; qlra.
Qed.
Lemma fmin_q : forall a b : Qc, fmin a b = qmin a b.
Proof.
  intros a b. unfold fmin. destruct (qmin_cases a b) as [[-> H]|[-> H]]; qcase; auto; qlra.
Qed.

(** The common part of compute_and and computeAnd. *)
Lemma and_core : forall lx ly xf yf b e xe ye x1 p x2 y1 q y2 px lx' py ly',
  ordered lx -> lx = px :: lx' -> time px <= b ->
  ordered ly -> ly = py :: ly' -> time py <= b -> b <= e ->
  (forall u, b <= u -> u < e -> eval lx u = Some (xf u)) ->
  (forall u, b <= u -> u < e -> eval ly u = Some (yf u)) ->
  left_at lx e xe -> left_at ly e ye ->
  lx = x1 ++ p :: x2 -> (time p < e \/ x1 = []) -> Forall (fun q => e <= time q) x2 ->
  ly = y1 ++ q :: y2 -> (time q < e \/ y1 = []) -> Forall (fun q => e <= time q) y2 ->
  exists z, (z <- computePartialAnd [] (rev (x1 ++ [p])) (rev (y1 ++ [q])) b e ;;
             simplify (mkSig z b e)) = Ok z /\
    and_result z b e (fun u => qmin (xf u) (yf u)) (qmin xe ye).
Proof.
  intros lx ly xf yf b e xe ye x1 p x2 y1 q y2 px lx' py ly'
    Ox Ex Hpx Oy Ey Hpy Hbe HX HY LX LY Sx1 Sx2 Sx3 Sy1 Sy2 Sy3.
  destruct (skip_drep lx x1 p x2 b e xf px lx') as (Dx & Hx & Fx); auto.
  destruct (skip_drep ly y1 q y2 b e yf py ly') as (Dy & Hy & Fy); auto.
  assert (Vx : xe = line p e) by (rewrite Sx1 in LX; eapply left_at_split; eauto).
  assert (Vy : ye = line q e) by (rewrite Sy1 in LY; eapply left_at_split; eauto).
  destruct (Qcle_lt_or_eq _ _ Hbe) as [Lt|Eq].
  - destruct (computePartialAnd_ok false (fun u => qmin (xf u) (yf u)) b e yf xf
               (rev (x1 ++ [p])) (rev (y1 ++ [q])) [] e) as (r & z & E1 & R1 & [R2 R2'] & R3);
      auto; try qlra.
    { split; constructor. }
    rewrite E1. cbn [bind]. pose proof (prep_ordered _ _ _ _ _ R2) as R5. pose proof (prep_eval _ _ _ _ _ R2) as R6.
    destruct (simplify_ok r z b e) as (l' & S1 & S2 & S3 & S4 & S5 & S6 & _); auto.
    inversion R2' as [|? ? B1 B2]; subst.
    assert (Le : Forall (fun q => time q <= e) z).
    { eapply Forall_impl; [|exact B2]. intros a [Ha|Ha]; qlra. }
    eexists; split; [exact S1|]. constructor; cbn [samples beginTime endTime]; auto.
    + eauto.
    + intros u U1 U2. rewrite S4 by qlra. apply R6; auto.
    + destruct (S6 Lt) as (bk & t1 & T1 & T2 & T3).
      { eapply Forall_impl; [|exact B2]. intros a Ha. exact Ha. }
      rewrite T3 by qlra. f_equal.
      destruct (lip_line bk (time r) e) as (K1 & K10 & L1).
      destruct (lip_line p (time r) e) as (K2 & K20 & L2).
      destruct (lip_line q (time r) e) as (K3 & K30 & L3).
      (* beyond the starting times of p and q *)
      assert (Pe : time p < e).
      { destruct Sx2 as [|E]; auto. rewrite E in Sx1. cbn in Sx1. inversion Sx1; subst. qlra. }
      assert (Qe : time q < e).
      { destruct Sy2 as [|E]; auto. rewrite E in Sy1. cbn in Sy1. inversion Sy1; subst. qlra. }
      set (t2 := qmax t1 (qmax (time p) (time q))).
      assert (T4 : t1 <= t2 /\ time p <= t2 /\ time q <= t2 /\ t2 < e).
      { unfold t2. destruct (qmax_cases (time p) (time q)) as [[-> ?]|[-> ?]];
        match goal with |- context [qmax ?a ?b] => destruct (qmax_cases a b) as [[-> ?]|[-> ?]] end; 
        repeat split; qlra. }
      destruct T4 as (T4 & T5 & T6 & T7).
      apply (limit_eq (line bk) (fun u => qmin (line p u) (line q u)) (K1 + K2 + K3) t2 e); auto; try qlra.
      * eapply lip_sub; [eapply lip_weaken; [|exact L1]; qlra|qlra|qlra].
      * eapply lip_sub; [apply lip_min|..]; [eapply lip_weaken; [|exact L2]; qlra|eapply lip_weaken; [|exact L3]; qlra|qlra|qlra].
      * intros u U1 U2. specialize (T3 u). rewrite S4 in T3 by qlra. rewrite R6 in T3 by qlra.
        assert (K : Some (qmin (xf u) (yf u)) = Some (line bk u)) by (apply T3; qlra).
        cbv beta. transitivity (qmin (xf u) (yf u)); [congruence|]. rewrite Fx, Fy; auto; qlra.
  - subst e. assert (Pe : time p <= b).
    { destruct Sx2 as [|E]; [qlra|]. rewrite E in Sx1. rewrite Ex in Sx1. cbn in Sx1. inversion Sx1; subst. qlra. }
    assert (Qe : time q <= b).
    { destruct Sy2 as [|E]; [qlra|]. rewrite E in Sy1. rewrite Ey in Sy1. cbn in Sy1. inversion Sy1; subst. qlra. }
    rewrite !rev_app_distr. cbn [rev app].
    destruct (partial_and_point p (rev x1) q (rev y1) b) as (r & E1 & R1 & R2); auto.
    rewrite E1. cbn [bind].
    destruct (simplify_ok r [] b b) as (l' & S1 & S2 & S3 & S4 & S5 & S6 & _); auto.
    { cbn. auto. }
    eexists; split; [exact S1|]. constructor; cbn [samples beginTime endTime]; auto.
    + eauto.
    + constructor; [qlra|]. auto.
    + intros u U1 U2. exfalso. qlra.
    + rewrite S4 by qlra. cbn [eval]. qcase; [|exfalso; qlra]. rewrite R2, Vx, Vy. reflexivity.
Qed.

Section Ops.
Variables (x y : signal Qc) (xf yf : Qc -> Qc) (xe ye : Qc).
Let b := qmax (beginTime x) (beginTime y).
Let e := qmin (endTime x) (endTime y).
Hypothesis Wx : ordered (samples x).
Hypothesis Wy : ordered (samples y).
Hypothesis Px : exists p l, samples x = p :: l /\ time p <= b.
Hypothesis Py : exists p l, samples y = p :: l /\ time p <= b.
Hypothesis Vx : forall u, b <= u -> u < e -> eval (samples x) u = Some (xf u).
Hypothesis Vy : forall u, b <= u -> u < e -> eval (samples y) u = Some (yf u).
Hypothesis Lx : left_at (samples x) e xe.
Hypothesis Ly : left_at (samples y) e ye.
Hypothesis Hbe : b <= e.

Lemma compute_and_ok : exists z, compute_and x y = Ok z /\
  and_result z b e (fun u => qmin (xf u) (yf u)) (qmin xe ye).
Proof.
  unfold compute_and. cbv zeta. rewrite fmax_q, fmin_q. fold b e.
  destruct Px as (px & lx & Ex & Tx). destruct Py as (py & ly & Ey & Ty).
  destruct (skip_guarded_ok e (samples x)) as (x1 & p & x2 & A1 & A2 & A3 & A4).
  { rewrite Ex. discriminate. }
  destruct (skip_guarded_ok e (samples y)) as (y1 & q & y2 & B1 & B2 & B3 & B4).
  { rewrite Ey. discriminate. }
  rewrite A2. cbn [bind]. rewrite B2. cbn [bind].
  eapply and_core with (lx := samples x) (ly := samples y); eauto.
Qed.

Lemma computeAnd_ok : b < e -> exists z, computeAnd x y = Ok z /\
  and_result z b e (fun u => qmin (xf u) (yf u)) (qmin xe ye).
Proof.
  intros Hlt.
  unfold computeAnd. cbv zeta. rewrite fmax_q, fmin_q. fold b e.
  destruct Px as (px & lx & Ex & Tx). destruct Py as (py & ly & Ey & Ty).
  destruct (skip_unguarded_ok e px lx) as (x1 & p & x2 & A1 & A2 & A3 & A4); [qlra|].
  destruct (skip_unguarded_ok e py ly) as (y1 & q & y2 & B1 & B2 & B3 & B4); [qlra|].
  rewrite <- Ex in *. rewrite <- Ey in *.
  rewrite A2. cbn [bind]. rewrite B2. cbn [bind].
  eapply and_core with (lx := samples x) (ly := samples y); eauto.
Qed.
End Ops.

(** ** Or *)
Lemma left_at_neg : forall l e v, left_at l e v -> left_at (negl l) e (- v).
Proof.
  intros l e v (l1 & p & l2 & E1 & E2 & E3 & E4).
  exists (negl l1), (neg p), (negl l2). rewrite E1, map_app. split; auto. split; [|split].
  - destruct E2 as [E2| ->]; auto.
  - rewrite Forall_map. exact E3.
  - rewrite line_neg, E4. auto.
Qed.

Lemma and_result_neg : forall z b e f g ve we, and_result z b e f ve ->
  (forall u, b <= u -> u < e -> g u = - f u) -> we = - ve ->
  and_result (cnot z) b e g we.
Proof.
  intros z b e f g ve we R H1 H2. destruct R as [A1 A2 A3 A4 A5 A6 A7].
  constructor; cbn [compute_not samples beginTime endTime]; auto.
  - destruct A3 as (p & l & -> & T & F). exists (neg p), (negl l). repeat split; auto.
    rewrite Forall_map. exact F.
  - apply ordered_neg; auto.
  - rewrite Forall_map. exact A5.
  - intros u U1 U2. rewrite eval_neg, A6 by auto. cbn. rewrite H1; auto.
  - rewrite eval_neg, A7. cbn. rewrite H2. auto.
Qed.

Section Ops2.
Variables (x y : signal Qc) (xf yf : Qc -> Qc) (xe ye : Qc).
Let b := qmax (beginTime x) (beginTime y).
Let e := qmin (endTime x) (endTime y).
Hypothesis Wx : ordered (samples x).
Hypothesis Wy : ordered (samples y).
Hypothesis Px : exists p l, samples x = p :: l /\ time p <= b.
Hypothesis Py : exists p l, samples y = p :: l /\ time p <= b.
Hypothesis Vx : forall u, b <= u -> u < e -> eval (samples x) u = Some (xf u).
Hypothesis Vy : forall u, b <= u -> u < e -> eval (samples y) u = Some (yf u).
Hypothesis Lx : left_at (samples x) e xe.
Hypothesis Ly : left_at (samples y) e ye.
Hypothesis Hbe : b <= e.

Lemma compute_or_ok : exists z, compute_or x y = Ok z /\
  and_result z b e (fun u => qmax (xf u) (yf u)) (qmax xe ye).
Proof.
  rewrite compute_or_neg.
  destruct (compute_and_ok (cnot x) (cnot y) (fun u => - xf u) (fun u => - yf u) (- xe) (- ye))
    as (z & E & R); cbn [compute_not samples beginTime endTime]; auto using left_at_neg.
  - apply ordered_neg; auto.
  - apply ordered_neg; auto.
  - destruct Px as (p & l & -> & T). exists (neg p), (negl l). auto.
  - destruct Py as (p & l & -> & T). exists (neg p), (negl l). auto.
  - intros u U1 U2. rewrite eval_neg, Vx by auto. reflexivity.
  - intros u U1 U2. rewrite eval_neg, Vy by auto. reflexivity.
  - rewrite E. exists (cnot z). split; [reflexivity|].
    eapply and_result_neg; [exact R|intros u U1 U2|]; cbv beta; rewrite qmin_neg; ring.
Qed.

Lemma computeOr_ok : b < e -> exists z, computeOr x y = Ok z /\
  and_result z b e (fun u => qmax (xf u) (yf u)) (qmax xe ye).
Proof.
  intros Hlt. rewrite computeOr_neg.
  destruct (computeAnd_ok (cnot x) (cnot y) (fun u => - xf u) (fun u => - yf u) (- xe) (- ye))
    as (z & E & R); cbn [compute_not samples beginTime endTime]; auto using left_at_neg.
  - apply ordered_neg; auto.
  - apply ordered_neg; auto.
  - destruct Px as (p & l & -> & T). exists (neg p), (negl l). auto.
  - destruct Py as (p & l & -> & T). exists (neg p), (negl l). auto.
  - intros u U1 U2. rewrite eval_neg, Vx by auto. reflexivity.
  - intros u U1 U2. rewrite eval_neg, Vy by auto. reflexivity.
  - rewrite E. exists (cnot z). split; [reflexivity|].
    eapply and_result_neg; [exact R|intros u U1 U2|]; cbv beta; rewrite qmin_neg; ring.
Qed.
End Ops2.

