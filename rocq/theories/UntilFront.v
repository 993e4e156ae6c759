(** The first value of until, for operands that need not be sampled in step. *)
From Coq Require Import List QArith Qcanon Bool Lia.
From Verif Require Import Num Base Signal QcTac Spec Robust Repr AndProof NegProof SimplifyProof Lip BoolOps Closed SigProof ResizeProof EvProof PlateauProof BoundedProof TimedProof UntilProof UntilTimed Front.
Import ListNotations.
Local Open Scope Qc_scope.

(** ** The partial sweep of eventually *)
Definition ev_rest (z j : list smp) (s t : Qc) (c : bool) (m : Qc) : res (list smp * list smp) :=
  '(z', t', c', m', i') <- partial_ev_loop z j s t c m ;;
  p <- deref i' ;;
  z'' <- partial_ev_last z' p s t' c' m' ;;
  Ok (z'', i').

Lemma ev_body_later : forall s z p t c m z' c' m', ev_body z p t c m = Ok (z', c', m') -> s < time p -> s < t ->
  Forall (later s) z -> Forall (later s) z'.
Proof.
  intros s z p t c m z' c' m' E L Lt F. unfold ev_body in E. change n0 with 0 in *.
  assert (Fc : Forall (later s) (if c then mkS t m 0 :: z else z)) by (destruct c; auto).
  destruct (nleb 0 (deriv p)) eqn:Dp; [destruct (nltb m (valueAt p t)); inversion E; subst; auto|].
  destruct (nleb m (valueAt p t)) eqn:B1; [inversion E; subst; auto|].
  destruct (nleb (value p) m) eqn:B2; [inversion E; subst; auto|]. qb.
  rewrite ndiv_some in E by (intro; qlra). cbn [of_div bind] in E. inversion E; subst.
  constructor; auto. constructor; auto. unfold later. cbn [time]. change (nadd (time p) ?q) with (time p + q). change (nsub m (value p)) with (m - value p).
  assert (K : 0 < (m - value p) / deriv p) by (qdiv (m - value p) (deriv p); qnra). qlra.
Qed.

Lemma ev_rest_front : forall s j z t c m z1 i1, drop_after s j <> [] -> s < t -> Forall (later s) z ->
  ev_rest z (cut s j) s t c m = Ok (z1, i1) ->
  exists r zz zz', z1 = r :: zz /\ time r = s /\ ev_rest z j s t c m = Ok (r :: zz', drop_after s j) /\ Forall (later s) zz'.
Proof.
  intros s. induction j as [|q j IH]; intros z t c m z1 i1 N Lt F H; [contradiction|].
  cbn [cut drop_after] in *. unfold ev_rest in *. rewrite partial_ev_loop_eq in *. destruct (nltb s (time q)) eqn:B.
  - rewrite B in H. destruct (ev_body z q t c m) as [[[z2 c2] m2]| | | |] eqn:Eb; cbn [bind] in *; try discriminate. qb.
    eapply IH; eauto. eapply ev_body_later; eauto.
  - cbn [time] in H. replace (nltb s s) with false in H by (symmetry; apply nltb_false; qlra). cbn [bind deref] in *. qb.
    unfold partial_ev_last in *. cbn [deriv value] in *. vline. rewrite !line_cut in H. change n0 with 0 in *.
    assert (Fc : Forall (later s) (if c then mkS t m 0 :: z else z)) by (destruct c; auto).
    destruct (nleb 0 (deriv q)) eqn:Dp.
    { destruct (nltb m (line q t)); cbn [bind] in *; inversion H; subst; do 3 eexists; (split; [reflexivity|]); (split; [reflexivity|]); (split; [reflexivity|]); auto. }
    destruct (nleb m (line q t)) eqn:B1.
    { cbn [bind] in *; inversion H; subst; do 3 eexists; (split; [reflexivity|]); (split; [reflexivity|]); (split; [reflexivity|]); auto. }
    destruct (nleb (line q s) m) eqn:B2.
    { cbn [bind] in *; inversion H; subst; do 3 eexists; (split; [reflexivity|]); (split; [reflexivity|]); (split; [reflexivity|]); auto. }
    qb. rewrite ndiv_some in * by (intro; qlra). cbn [of_div bind] in *. inversion H; subst. do 3 eexists. split; [reflexivity|]. split; [reflexivity|]. split; [reflexivity|].
    constructor; auto. unfold later. cbn [time]. change (nadd s ?q) with (s + q). change (nsub m (value q)) with (m - value q).
    assert (V : m < value q) by (unfold line in B2; qnra).
    assert (K : 0 < (m - value q) / deriv q) by (qdiv (m - value q) (deriv q); qnra). qlra.
Qed.

Lemma partial_ev_front : forall M s j t z1 i1, drop_after s j <> [] -> s < t ->
  computePartialEventually M [] (cut s j) s t = Ok (z1, i1) ->
  exists r zz zz', z1 = r :: zz /\ time r = s /\ computePartialEventually M [] j s t = Ok (r :: zz', drop_after s j) /\ Forall (later s) zz'.
Proof. intros M s j t z1 i1 N L H. apply (ev_rest_front s j [] t false (BOTTOM M) z1 i1); auto. Qed.

(** ** One segment *)
Lemma good_here : forall s p, time p = s -> good s (value p) p.
Proof. intros s p T. split; [rewrite T; apply Qcle_refl|]. split; [auto|]. rewrite <- T. apply line_at. Qed.

Lemma front_stj : forall s p l t, time p = s -> Forall (later s) l -> s < t -> stj s s (value p) (rev (p :: l)) t.
Proof.
  intros s p l t T F L. left. split; auto. apply sp_jl; [rewrite T; apply Qcle_refl|apply good_here; auto|]. apply sp_later. auto.
Qed.
Lemma sp_stj : forall s v f l t, time f = s -> good s v f -> sp s v s l -> s < t -> stj s s v (rev (f :: l)) t.
Proof. intros s v f l t T G P L. left. split; auto. apply sp_jl; [rewrite T; apply Qcle_refl|auto|]. rewrite T. auto. Qed.
Lemma stj_neg : forall s b v l t, stj s b v l t -> stj s b (- v) (negl l) t.
Proof.
  assert (X : forall s b v l t, tailg s b v l t -> tailg s b (- v) (negl l) t).
  { intros s b v l t H. induction H; cbn [map]; [apply tl_last|apply tl_step]; rewrite ?time_neg; auto using good_neg. }
  intros s b v l t [[L H]|[L H]]; [left|right; auto]. split; auto. induction H; cbn [map]; [apply jl_good; auto|].
  apply jl_junk; auto.
Qed.
Lemma later_neg : forall s l, Forall (later s) l -> Forall (later s) (negl l).
Proof. intros s l F. apply Forall_map. eapply Forall_impl; [|exact F]. unfold later. intros q. rewrite time_neg. auto. Qed.

(** A piece that starts at [s] against a list that reaches back to it. *)
Lemma seg_and_front : forall s i t j z v, time i = s -> s < t -> stj s s v j t -> Forall (later s) z ->
  exists p z' q j', computeSegmentAnd z i t j = Ok (p :: z', q :: j') /\ time p = s /\ value p = qmin (value i) v /\ Forall (later s) z'.
Proof.
  intros s i t j z v T L J F.
  destruct (segment_front s s (value i) v (Qcle_refl _) i) with (j := j) (z := z) (t := t)
    as (p & z' & q & j' & E & A1 & A2 & A3 & A4 & A5); rewrite ?T in *; auto; try (intros; qlra); try qlra.
  - right. split; [apply good_here; auto|apply Qcle_refl].
  - left. auto.
  - destruct (A5 (Qcle_refl _)) as (B1 & B2 & B3). exists p, z', q, j'. split; [auto|]. split; [auto|]. split; [apply B1|]. apply B3. auto.
Qed.
Lemma seg_or_front : forall s i t j z v, time i = s -> s < t -> stj s s v j t -> Forall (later s) z ->
  exists p z' q j', computeSegmentOr z i t j = Ok (p :: z', q :: j') /\ time p = s /\ value p = qmax (value i) v /\ Forall (later s) z'.
Proof.
  intros s i t j z v T L J F. rewrite computeSegmentOr_neg.
  destruct (seg_and_front s (neg i) t (negl j) (negl z) (- v)) as (p & z' & q & j' & E & A1 & A2 & A3); auto using stj_neg, later_neg.
  rewrite E. cbn [rmap fst snd map]. do 4 eexists. split; [reflexivity|]. rewrite time_neg. split; [auto|]. split; [|apply later_neg; auto].
  change (value (neg p)) with (- value p). rewrite A2. change (value (neg i)) with (- value i). rewrite qmin_neg. ring.
Qed.
Lemma partial_or_front : forall s i j t z v1 v2, s < t -> stj s s v1 i t -> stj s s v2 j t -> Forall (later s) z ->
  exists p z', computePartialOr z i j s t = Ok (p :: z') /\ time p = s /\ value p = qmax v1 v2 /\ Forall (later s) z'.
Proof.
  intros s i j t z v1 v2 L I J F. rewrite computePartialOr_neg.
  destruct (partial_front s s (- v1) (- v2) (Qcle_refl _) (negl i) (negl j) (negl z) t) as (p & z' & E & A1 & A2 & A3 & A4); auto using stj_neg.
  - left. split; auto using later_neg.
  - rewrite E. cbn [rmap map]. do 2 eexists. split; [reflexivity|]. rewrite time_neg. split; [auto|]. split; [|apply later_neg; auto].
    change (value (neg p)) with (- value p). destruct A2 as (_ & -> & _). rewrite qmin_neg. ring.
Qed.

Lemma prep_first : forall Q e f l s, prepQ true Q e (f :: l) s -> time f = s /\ Q s (line f s).
Proof. intros Q e f l s P. inversion P as [|? ? ? t1 B1 B2 B3 B4]; subst. split; auto. apply B3; [qlra|exact B2]. Qed.

(** ** A segment of a conjunction, over all of its time *)
Definition onto {A B} (k : list A) (p : list A * B) : list A * B := (fst p ++ k, snd p).

Lemma body_acc : forall i z k t c j, seg_and_body i (z ++ k) t c j = rmap (onto k) (seg_and_body i z t c j).
Proof.
  intros i z k t c j. unfold seg_and_body. repeat (cbv zeta; match goal with |- context[if ?b then _ else _] => destruct b end); cbn [bind rmap]; try reflexivity;
    destruct (timeIntersect i j); reflexivity.
Qed.
Lemma loop_acc : forall i j z k t c, seg_and_loop i (z ++ k) t c j =
  rmap (fun r => match r with (z', t', c', j') => (z' ++ k, t', c', j') end) (seg_and_loop i z t c j).
Proof.
  intros i j. induction j as [|q j IH]; intros z k t c; cbn [seg_and_loop]; [reflexivity|].
  destruct (nltb (time i) (time q)); [|reflexivity]. rewrite body_acc.
  destruct (seg_and_body i z t c q) as [[z' c']| | | |]; cbn [bind rmap onto fst snd]; auto.
Qed.
Lemma last_acc : forall i z k t c j, seg_and_last i (z ++ k) t c j = rmap (fun r => r ++ k) (seg_and_last i z t c j).
Proof.
  intros i z k t c j. unfold seg_and_last. repeat (cbv zeta; match goal with |- context[if ?b then _ else _] => destruct b end); cbn [bind rmap]; try reflexivity;
    destruct (timeIntersect i j); reflexivity.
Qed.
Lemma seg_acc : forall z k i t j, computeSegmentAnd (z ++ k) i t j = rmap (onto k) (computeSegmentAnd z i t j).
Proof.
  intros z k i t j. unfold computeSegmentAnd. rewrite loop_acc.
  destruct (seg_and_loop i z t false j) as [[[[z' t'] c'] j']| | | |]; cbn [bind rmap]; auto.
  destruct (deref j') as [q| | | |]; cbn [bind rmap]; auto. rewrite last_acc.
  destruct (seg_and_last i z' t' c' q); cbn [bind rmap]; auto.
Qed.

Lemma seg_and_full : forall xf yf i t j, time i < t -> (forall u, time i <= u -> u <= t -> xf u = line i u) ->
  drep true yf (time i) j t ->
  exists r z j', computeSegmentAnd [] i t j = Ok (r :: z, j') /\ time r = time i /\
    prepQ true (fun u v => qmin (xf u) (yf u) = v) t (r :: z) (time i).
Proof.
  intros xf yf i t j L HX HY.
  destruct (computeSegmentAnd_ok true (fun u v => u <= t -> qmin (xf u) (yf u) = v) (time i) (t + 1) (fun u v w => xf u = v /\ yf u = w) i [] i j [mkS t (qmin (xf t) (yf t)) 0] t)
    as (r & z & sj & j1 & E & A1 & [A2 _] & _); auto; try qlra.
  - apply (merged_of_drep true (fun u v => xf u = v) (fun u w => yf u = w)); auto. apply drep_last; [qlra|]. intros u U1 U2. apply HX; auto.
  - intros u v w _ _ [<- <-]. reflexivity.
  - intros p j0 ->. left. inversion HY; subst; qlra.
  - split; [|constructor; [left; cbn; qlra|constructor]]. apply prep_cons with (t + 1); [reflexivity|cbn; qlra| |constructor].
    intros u U1 U2 U3. cbn [time] in U1. replace u with t by qlra. symmetry. apply (line_at (mkS t (qmin (xf t) (yf t)) 0)).
  - change [mkS t (qmin (xf t) (yf t)) 0] with ([] ++ [mkS t (qmin (xf t) (yf t)) 0]) in E. rewrite seg_acc in E.
    destruct (computeSegmentAnd [] i t j) as [[w j2]| | | |]; cbn [rmap onto fst snd] in E; try discriminate. inversion E as [[E1 E2]]. subst j2.
    rewrite <- E1 in A2. apply prepQ_app in A2. destruct A2 as (t1 & P1 & P2).
    assert (t1 = t) by (inversion P2; subst; reflexivity). subst t1.
    destruct w as [|r' w]; [cbn in E1; inversion E1; subst; cbn in A1; exfalso; qlra|]. cbn in E1. inversion E1; subst r'.
    exists r, w, (sj :: j1). split; [reflexivity|]. split; [auto|].
    eapply prepQ_impl; [exact P1|]. cbn beta. intros u v _ U H. apply H. exact U.
Qed.

(** ** A segment of no length *)
Lemma seg_and_zero : forall z i q j, time q <= time i ->
  exists p, computeSegmentAnd z i (time i) (q :: j) = Ok (p :: z, q :: j) /\ time p = time i /\ value p = qmin (value i) (line q (time i)).
Proof.
  intros z i q j L. unfold computeSegmentAnd. cbn [seg_and_loop].
  replace (nltb (time i) (time q)) with false by (symmetry; apply nltb_false; auto). cbn [bind deref]. unfold seg_and_last. cbv zeta. vline. rewrite line_at.
  destruct (nltb (value i) (line q (time i))) eqn:B1; qb.
  - replace (nltb (line q (time i)) (value i)) with false by (symmetry; apply nltb_false; qlra). cbn [bind]. exists i. split; [auto|]. split; [auto|]. rewrite qmin_l by qlra. auto.
  - destruct (neqb (value i) (line q (time i))) eqn:B2; qb.
    + rewrite <- B2. replace (nltb (value i) (value i)) with false by (symmetry; apply nltb_false; qlra). cbn [bind]. exists i. split; [auto|]. split; [auto|]. rewrite qmin_l by qlra. auto.
    + cbn [bind]. eexists. split; [reflexivity|]. split; [auto|]. rewrite qmin_r by auto. auto.
Qed.
Lemma seg_or_zero : forall z i q j, time q <= time i ->
  exists p, computeSegmentOr z i (time i) (q :: j) = Ok (p :: z, q :: j) /\ time p = time i /\ value p = qmax (value i) (line q (time i)).
Proof.
  intros z i q j L. rewrite computeSegmentOr_neg. cbn [map].
  destruct (seg_and_zero (negl z) (neg i) (neg q) (negl j)) as (p & E & A1 & A2); [rewrite !time_neg; auto|].
  rewrite time_neg in *. rewrite E. cbn [rmap fst snd map]. exists (neg p). split.
  - pose proof (negl_negl (q :: j)) as N1. pose proof (negl_negl z) as N2. cbn [map] in N1. change (Ok (neg p :: negl (negl z), neg (neg q) :: negl (negl j)) = Ok (neg p :: z, q :: j)). rewrite N1, N2. reflexivity.
  - rewrite time_neg. split; [auto|]. change (value (neg p)) with (- value p). rewrite A2, line_neg. change (value (neg i)) with (- value i). rewrite qmin_neg. ring.
Qed.
Lemma ev_zero : forall M s q j, time q <= s -> - M <= line q s ->
  exists r, computePartialEventually M [] (q :: j) s s = Ok ([r], q :: j) /\ time r = s /\ value r = line q s.
Proof.
  intros M s q j L B. unfold computePartialEventually. rewrite partial_ev_loop_eq.
  replace (nltb s (time q)) with false by (symmetry; apply nltb_false; auto). cbn [bind deref]. unfold partial_ev_last. change (BOTTOM M) with (- M). vline. change n0 with 0.
  destruct (nleb 0 (deriv q)).
  - destruct (nltb (- M) (line q s)) eqn:B1; qb; cbn [bind].
    + eexists. split; [reflexivity|]. auto.
    + eexists. split; [reflexivity|]. split; [auto|]. cbn. qlra.
  - replace (nleb (- M) (line q s)) with true by (symmetry; apply nleb_true; auto). cbn [bind]. eexists. split; [reflexivity|]. auto.
Qed.
Lemma partial_or_zero : forall z p q s, time p = s -> time q <= s ->
  exists r, computePartialOr z [p] [q] s s = Ok (r :: z) /\ time r = s /\ value r = qmax (value p) (line q s).
Proof.
  intros z p q s <- L. cbn [computePartialOr]. replace (nltb (time p) (time p)) with false by (symmetry; apply nltb_false; apply Qcle_refl).
  replace (neqb (time p) (time p)) with true by (symmetry; apply neqb_true; auto).
  destruct (seg_or_zero z p q [] L) as (r & E & A1 & A2). rewrite E. cbn [bind]. eauto.
Qed.

Section Until.
Variables (M : Qc) (xf yf : Qc -> Qc) (b e : Qc) (I : Qc -> Qc -> Qc).
Hypothesis HI : forall u t, b <= u -> u <= t -> t <= e -> is_inf xf u t (I u t).
Hypothesis XB : forall u, b <= u -> u <= e -> - M <= xf u.
Hypothesis YB : forall u, b <= u -> u <= e -> - M <= yf u.
Notation S := (UntilProof.S yf e I).
Notation known := (UntilProof.known M yf e I).

Lemma segment_until_front : forall z i t j m, b <= time i -> time i < t -> t <= e ->
  (forall u, time i <= u -> u <= t -> xf u = line i u) -> drep true yf b j t ->
  known t m -> Forall (later (time i)) z ->
  exists r z', computeSegmentUntil M z i t j m = Ok (r :: z', drop_after (time i) j) /\
    time r = time i /\ S (time i) (value r) /\ Forall (later (time i)) z'.
Proof.
  intros z i t j m Hb Ht He HX HY K Fz.
  remember (time i) as s eqn:Es.
  destruct (drop_after_drep _ _ _ _ s HY Hb) as (q & j' & D1 & D2 & D3 & D4); [qlra|].
  assert (Xs : value i = xf s) by (rewrite HX, Es, line_at by qlra; auto).
  unfold computeSegmentUntil. rewrite <- Es. vline. change n0 with 0.
  destruct (nleb (deriv i) 0) eqn:D; qb.
  - assert (FD : forall p r, s <= p -> p <= r -> r <= t -> xf r <= xf p).
    { intros p r P1 P2 P3. rewrite !HX by qlra. unfold line. qnra. }
    destruct (seg_and_full xf yf i t j) as (r1 & z1 & j1 & E1 & A1 & A2); rewrite <- ?Es; auto.
    pose proof (computeSegmentAnd_drop _ _ _ _ _ _ E1) as E1'. rewrite E1, E1', <- Es. cbn [bind]. rewrite <- Es in A1, A2.
    destruct (ev_sweep M (fun u => qmin (xf u) (yf u)) true s t) with (i := rev (r1 :: z1)) as (z2 & i2 & E2 & P2 & V2).
    { intros u U1 U2. apply le_min. split; [apply XB|apply YB]; qlra. }
    { apply evp_of_prep; auto; [discriminate|qlra]. }
    rewrite E2. cbn [bind]. rewrite fmin_q.
    assert (N2 : z2 <> []) by (intros ->; discriminate).
    rewrite <- (HX t) by qlra.
    assert (P2' := P2). destruct z2 as [|f2 l2]; [congruence|]. destruct (prep_first _ _ _ _ _ P2) as [_ W].
    destruct (prep_sp s _ _ _ (line f2 s) P2') as (f & l' & E3 & T3 & G3 & SP3); auto.
    { intros r R. eapply is_sup_unique; eauto. }
    rewrite E3.
    destruct (seg_or_front s (mkS s (qmin m (xf t)) 0) t (rev (f :: l')) z (line f2 s)) as (r & z' & q' & j2 & E4 & C1 & C2 & C3); auto.
    { apply sp_stj; auto. }
    rewrite E4. cbn [bind]. exists r, z'. split; [reflexivity|]. split; [auto|]. split; [|auto]. rewrite C2. cbn [value].
    eapply falling; eauto; try qlra. 
  - assert (FD : forall p r, s <= p -> p <= r -> r <= t -> xf p <= xf r).
    { intros p r P1 P2 P3. rewrite !HX by qlra. unfold line. qnra. }
    destruct (ev_sweep M yf true s t) with (i := cut s j) as (z1 & i1 & E1 & P1 & V1).
    { intros u U1 U2. apply YB; qlra. }
    { apply evp_cut; auto; qlra. }
    destruct (partial_ev_front M s j t z1 i1) as (r1 & zz & zz' & -> & T1 & E1' & F1); auto.
    { rewrite D1. discriminate. }
    rewrite E1'. cbn [bind].
    assert (W : is_sup yf s t (value r1)).
    { destruct (prep_first _ _ _ _ _ P1) as [_ W]. rewrite <- (line_at r1), T1. exact W. }
    destruct (seg_and_front s i t (rev (r1 :: zz')) [] (value r1)) as (r2 & z2 & q2 & j2 & E2 & A1 & A2 & A3); auto.
    { apply front_stj; auto. }
    rewrite E2. cbn [bind].
    destruct (seg_and_front s i t [mkS s m 0] [] m) as (r3 & z3 & q3 & j3 & E3 & B1 & B2 & B3); auto.
    { apply (front_stj s (mkS s m 0) [] t); auto. }
    rewrite E3. cbn [bind].
    destruct (partial_or_front s (rev (r3 :: z3)) (rev (r2 :: z2)) t z (value r3) (value r2)) as (r & z' & E4 & C1 & C2 & C3); auto using front_stj.
    rewrite E4. cbn [bind]. exists r, z'. split; [reflexivity|]. split; [auto|]. split; [|auto]. rewrite C2, A2, B2, Xs.
    eapply climbing; eauto; qlra.
Qed.

Lemma sup_point : forall (g : Qc -> Qc) t, is_sup g t t (g t).
Proof. intros g t. split; [intros r R1 R2; replace r with t by qlra; apply Qcle_refl|intros r R; apply R; apply Qcle_refl]. Qed.

Lemma line_here : forall (p : smp) t, time p = t -> line p t = value p.
Proof. intros p t <-. apply line_at. Qed.

Lemma segment_until_zero : forall z i j m, b <= time i -> time i <= e -> value i = xf (time i) -> drep true yf b j (time i) ->
  known (time i) m ->
  exists r, computeSegmentUntil M z i (time i) j m = Ok (r :: z, drop_after (time i) j) /\ time r = time i /\ S (time i) (value r).
Proof.
  intros z i j m Hb He HX HY K.
  destruct (drop_after_drep _ _ _ _ (time i) HY Hb) as (q & j' & D1 & D2 & D3 & D4); [apply Qcle_refl|].
  assert (J : drop_after (time i) j = j /\ j = q :: j').
  { inversion HY; subst; cbn [drop_after] in *; replace (nltb (time i) (time p)) with false in * by (symmetry; apply nltb_false; qlra); auto. }
  destruct J as [-> ->]. clear D1 D4.
  assert (Yq : line q (time i) = yf (time i)).
  { inversion HY; subst; symmetry; match goal with H : forall u, _ -> _ -> yf u = _ |- _ => apply H end; cbn; auto; apply Qcle_refl. }
  unfold computeSegmentUntil. vline. change n0 with 0. rewrite line_at.
  assert (FD : forall p r, time i <= p -> p <= r -> r <= time i -> xf r = xf p) by (intros p r P1 P2 P3; f_equal; qlra).
  destruct (nleb (deriv i) 0).
  - destruct (seg_and_zero [] i q j' D2) as (r1 & E1 & A1 & A2). rewrite E1. cbn [bind rev app].
    destruct (ev_zero M (time i) r1 []) as (r2 & E2 & B1 & B2); [qlra| |].
    { rewrite line_here, A2, HX, Yq by auto. apply le_min. split; [apply XB|apply YB]; auto. }
    rewrite E2. cbn [bind rev app]. rewrite fmin_q.
    destruct (seg_or_zero z (mkS (time i) (qmin m (value i)) 0) r2 []) as (r & E3 & C1 & C2); [cbn; qlra|]. cbn [time value] in *.
    rewrite E3. cbn [bind]. exists r. split; [reflexivity|]. split; [auto|]. rewrite C2.
    rewrite (line_here r2), B2, (line_here r1), A2, Yq, HX by auto.
    apply (falling M xf yf b e I HI) with (s := time i) (t := time i); auto; try apply Qcle_refl.
    + intros p r' P1 P2 P3. rewrite (FD p r') by auto. apply Qcle_refl.
    + apply (sup_point (fun r => qmin (xf r) (yf r))).
  - destruct (ev_zero M (time i) q j') as (r1 & E1 & A1 & A2); auto.
    { rewrite Yq. apply YB; auto. }
    rewrite E1. cbn [bind rev app].
    destruct (seg_and_zero [] i r1 []) as (r2 & E2 & B1 & B2); [qlra|]. rewrite E2. cbn [bind].
    destruct (seg_and_zero [] i (mkS (time i) m 0) []) as (r3 & E3 & C1 & C2); [cbn; qlra|]. rewrite E3. cbn [bind rev app].
    destruct (partial_or_zero z r3 r2 (time i)) as (r & E4 & G1 & G2); auto; [qlra|]. rewrite E4. cbn [bind].
    exists r. split; [reflexivity|]. split; [auto|]. rewrite G2, C2, (line_here r2), B2, (line_here r1), A2, Yq, HX, (line_here (mkS (time i) m 0)) by auto. cbn [value].
    apply (climbing M xf yf b e I HI) with (s := time i) (t := time i); auto; try apply Qcle_refl.
    + intros p r' P1 P2 P3. rewrite (FD p r') by auto. apply Qcle_refl.
    + apply (sup_point yf).
Qed.

Lemma until_sweep_front : forall i j z t m, b < t -> t <= e -> drep true xf b i t -> drep true yf b j t ->
  known t m -> Forall (fun q => t <= time q) z ->
  exists r z', until_loop M z i j b t m = Ok (r :: z') /\ time r = b /\ S b (value r) /\ Forall (later b) z'.
Proof.
  intros i j z t m Hb Ht DX. revert j z m Hb Ht.
  induction DX as [p i t L E|p i t L1 L2 E DX IH]; intros j z m Hb Ht DY K G; cbn [until_loop].
  - assert (G' : forall x, x < t -> Forall (later x) z).
    { intros x X. eapply Forall_impl; [|exact G]. unfold later. cbn beta. intros; qlra. }
    qcase; [exfalso; qlra|]. qcase.
    + destruct (segment_until_front z p t j m) as (r & z' & E1 & A1 & A2 & A3); auto; try qlra.
      * intros u U1 U2. apply E; [qlra|auto].
      * apply G'. qlra.
      * rewrite Eb0 in *. rewrite E1. cbn [bind]. exists r, z'. auto.
    + destruct (segment_until_front z (mkS b (line p b) (deriv p)) t j m) as (r & z' & E1 & A1 & A2 & A3); cbn [time deriv]; auto; try qlra.
      * intros u U1 U2. rewrite line_cut. auto.
      * vline. rewrite E1. cbn [bind]. exists r, z'. auto.
  - qcase; [|exfalso; qlra].
    assert (X : exists r z', computeSegmentUntil M z p t j m = Ok (r :: z', drop_after (time p) j) /\ time r = time p /\ S (time p) (value r) /\ Forall (fun q => time p <= time q) z').
    { destruct (Qclt_le_dec (time p) t) as [Lp|Lp].
      - destruct (segment_until_front z p t j m) as (r & z' & E1 & A1 & A2 & A3); auto; try qlra.
        { eapply Forall_impl; [|exact G]. unfold later. cbn beta. intros; qlra. }
        exists r, z'. split; [auto|]. split; [auto|]. split; [auto|]. eapply Forall_impl; [|exact A3]. unfold later. cbn beta. intros; qlra.
      - assert (Et : t = time p) by qlra. subst t.
        destruct (segment_until_zero z p j m) as (r & E1 & A1 & A2); auto; try qlra.
        { rewrite E, line_at; [auto| |]; apply Qcle_refl. }
        exists r, z. auto. }
    destruct X as (r & z' & E1 & A1 & A2 & A3).
    destruct (drop_after_drep _ _ _ _ (time p) DY) as (q & j' & D1 & D2 & D3 & D4); try qlra.
    rewrite E1. cbn [bind deref]. rewrite D1. cbn [bind deref].
    apply IH; auto.
    + qlra.
    + left. auto.
    + constructor; [rewrite A1; apply Qcle_refl|auto].
Qed.
End Until.

(** ** Until on whole signals *)
Lemma until_front : forall M xf yf x y,
  let b := qmax (beginTime x) (beginTime y) in let e := qmin (endTime x) (endTime y) in
  crep xf x -> crep yf y -> b < e ->
  (forall u, b <= u -> u <= e -> - M <= xf u) -> (forall u, b <= u -> u <= e -> - M <= yf u) ->
  exists z v, computeUntil M x y = Ok z /\ beginTime z = b /\ endTime z = e /\ jfront b v z /\ untilQ xf yf e b v.
Proof.
  intros M xf yf x y b e Rx Ry Lt XB YB.
  assert (B1 : beginTime x <= b /\ beginTime y <= b) by (unfold b; destruct (qmax_cases (beginTime x) (beginTime y)) as [[-> ?]|[-> ?]]; split; qlra).
  assert (B2 : e <= endTime x /\ e <= endTime y) by (unfold e; destruct (qmin_cases (endTime x) (endTime y)) as [[-> ?]|[-> ?]]; split; qlra).
  destruct B1 as [B1 B1']. destruct B2 as [B2 B2'].
  destruct (lt_drepQ x y (Qclt_le_weak _ _ Lt) x (fun u v => xf u = v)) as (x1 & x2 & X1 & X2 & X3 & X4 & X5); auto.
  destruct (lt_drepQ x y (Qclt_le_weak _ _ Lt) y (fun u v => yf u = v)) as (y1 & y2 & Y1 & Y2 & Y3 & Y4 & Y5); auto.
  pose (I := lowest xf (samples x)).
  assert (HI : forall u t, b <= u -> u <= t -> t <= e -> is_inf xf u t (I u t)).
  { intros u t U1 U2 U3. destruct Rx as [_ P]. apply (lowest_inf _ _ _ _ P); qlra. }
  destruct (until_sweep_front M xf yf b e I HI XB YB (rev x1) (rev y1) [] e (- M)) as (r & z & E & A1 & A2 & A3); auto; try qlra.
  - right. auto.
  - destruct (jfront_simplify b (value r) r z b e) as (z' & S1 & S2 & S3 & S4); auto; try qlra.
    { apply good_here. auto. }
    { apply sp_later. auto. }
    exists z', (value r). unfold computeUntil. cbv zeta. rewrite fmax_q, fmin_q. fold b e.
    rewrite X1, Y1, !skip_unguarded_split by auto. cbn [bind]. change (BOTTOM M) with (- M). rewrite E. cbn [bind].
    split; [auto|]. split; [auto|]. split; [auto|]. split; [auto|]. exists (I b). split; [|exact A2].
    intros t T1 T2. apply HI; auto. apply Qcle_refl.
Qed.

Lemma jfront_shift : forall s v z a, jfront s v z -> jfront (s + a) v (shift z a).
Proof.
  intros s v z a (B & En & f & l & E & T & G & (g & k & -> & O & Fg & Ft & Fk)).
  assert (GS : forall q, good s v q -> good (s + a) v (shift_sample a q)).
  { intros q (G1 & G2 & G3). unfold good, shift_sample, line. cbn [time value deriv]. change (nadd (time q) a) with (time q + a).
    split; [qlra|]. split; [auto|]. unfold line in G3. rewrite <- G3. ring. }
  assert (TS : forall q, time (shift_sample a q) = time q + a) by reflexivity.
  unfold shift. split; [cbn; change (nadd (beginTime z) a) with (beginTime z + a); qlra|]. split; [cbn; change (nadd (endTime z) a) with (endTime z + a); qlra|].
  exists (shift_sample a f), (map (shift_sample a) (g ++ k)). cbn [samples beginTime]. rewrite E. split; [reflexivity|].
  split; [rewrite TS, T; reflexivity|]. split; [auto|]. exists (map (shift_sample a) g), (map (shift_sample a) k). split; [apply map_app|].
  split; [|split; [apply Forall_map; eapply Forall_impl; [|exact Fg]; auto|]].
  - clear - O TS. induction g as [|p g IH]; cbn [map ordered] in *; auto. destruct O as [O1 O2]. split; auto. apply Forall_map.
    eapply Forall_impl; [|exact O1]. intros q Q. cbn beta. rewrite !TS. qlra.
  - split; apply Forall_map; (eapply Forall_impl; [|eassumption]); unfold later; intros q Q; cbn beta in *; rewrite ?TS; qlra.
Qed.

Lemma qmax_same : forall a, qmax a a = a.
Proof. intros. apply qmax_r, Qcle_refl. Qed.
Lemma qmin_same : forall a, qmin a a = a.
Proof. intros. apply qmin_l, Qcle_refl. Qed.

Section Timed.
Variables (M : Qc) (self : signal Qc) (xf yf : Qc -> Qc) (x y : signal Qc) (a d : Qc).
Let s := beginTime x.
Let e := qmin (endTime x) (endTime y).
Hypothesis Rx : crep xf x.
Hypothesis Ry : crep yf y.
Hypothesis XB : forall u, s <= u -> u <= endTime x -> - M <= xf u /\ xf u <= M.
Hypothesis YB : forall u, s + a <= u -> u <= endTime y -> - M <= yf u.
Hypothesis A0 : 0 <= a.
Hypothesis Ad : a < d.
Hypothesis S0 : 0 <= s.
Hypothesis By : beginTime y = s + a.
(** The first window ends inside the data; or the data ends before [d], after the first
    window has begun. *)
Hypothesis Len : s + d <= e \/ (e < d /\ s + a < e).

Lemma timed_front : exists z v, compute_timed_until M self x y a d = Ok z /\ beginTime z = s /\ endTime z = e - a /\ jfront s v z /\ windowQ xf yf a d e s v.
Proof.
  destruct (proj1_not_nil _ _ Rx) as (sx & lx & Ex). destruct (proj1_not_nil _ _ Ry) as (sy & ly & Ey').
  unfold compute_timed_until. rewrite Ex, Ey'.
  assert (SE : s + a < e) by (destruct Len as [L|[_ L]]; qlra).
  assert (EX : e <= endTime x /\ e <= endTime y) by (unfold e; destruct (qmin_cases (endTime x) (endTime y)) as [[-> ?]|[-> ?]]; split; qlra).
  destruct EX as [EX EY].
  assert (BQ : qmax (beginTime x) (beginTime y) = s + a) by (rewrite By; apply qmax_r; fold s; qlra).
  replace (smin (endTime x) (endTime y)) with e by (rewrite std_min; auto).
  pose (I := lowest xf (samples x)).
  assert (HI : forall u t, s <= u -> u <= t -> t <= e -> is_inf xf u t (I u t)).
  { intros u t H1 H2 H3. destruct Rx as [_ P]. apply (lowest_inf _ _ _ _ P); auto. qlra. }
  assert (UF := until_front M xf yf x y). cbv zeta in UF. rewrite BQ in UF. fold e in UF.
  destruct UF as (z3 & v3 & E3 & U1 & U2 & J3 & U3); auto.
  { intros u H1 H2. apply XB; qlra. }
  { intros u H1 H2. apply YB; qlra. }
  assert (V3 : is_sup (fun u => qmin (yf u) (I (s + a) u)) (s + a) e v3) by (apply (untilQ_I xf yf s e I HI); auto; qlra).
  change (nopp a) with (- a). change n0 with 0.
  assert (ALW : 0 < a -> forall z4 K, beginTime z4 = s + a -> endTime z4 = e -> jfront (s + a) K z4 ->
    is_sup (fun u => qmin (yf u) (I (s + a) u)) (s + a) (qmin (s + d) e) K ->
    exists z v, bind (computeBoundedGlobally M x a) (fun z1 => computeAnd z1 (shift z4 (- a))) = Ok z /\
      beginTime z = s /\ endTime z = e - a /\ jfront s v z /\ windowQ xf yf a d e s v).
  { intros AP z4 K B4 N4 J4 W4.
    destruct (bounded_alw False M xf x a) as (z1 & E1 & [K1 K2 K3 K4 K5]); auto; try (fold s; qlra).
    { intros u H1 H2. apply XB; auto. }
    fold s in K1. rewrite E1. cbn [bind].
    destruct (crepQ_front _ _ K3) as (f1 & l1 & T1 & T2 & T3). rewrite K1 in T3. specialize (T3 (or_intror eq_refl)). fold s in T3.
    assert (J1 : jfront s (value f1) z1).
    { eapply crep_jfront; eauto; [rewrite K2; qlra|]. cbn beta. fold s. intros r R. eapply is_inf_unique; [apply R; auto|auto]. }
    apply (jfront_shift _ _ _ (- a)) in J4. replace (s + a + - a) with s in J4 by ring.
    assert (Bs : beginTime (shift z4 (- a)) = s) by (unfold shift; cbn [beginTime]; rewrite B4; change (nadd (s + a) (- a)) with (s + a + - a); ring).
    assert (Es : endTime (shift z4 (- a)) = e - a) by (unfold shift; cbn [endTime]; rewrite N4; reflexivity).
    destruct (jfront_And s _ _ _ _ J1 J4) as (z & E5 & B5 & N5 & J5).
    { rewrite K1, K2, Bs, Es, qmax_same, qmin_r by qlra. qlra. }
    rewrite K1, Bs, qmax_same in B5. rewrite K2, Es, qmin_r in N5 by qlra.
    exists z, (qmin (value f1) K). split; [auto|]. split; [auto|]. split; [auto|]. split; [auto|].
    apply (window_parts xf yf s e I HI); auto; try qlra. rewrite qmin_l in T3 by qlra. auto. }
  qtest (nltb e d).
  - (* the data ends before [d] *)
    assert (W3 : is_sup (fun u => qmin (yf u) (I (s + a) u)) (s + a) (qmin (s + d) e) v3) by (rewrite qmin_r by qlra; exact V3).
    qtest (neqb a 0).
    + assert (SA : s + a = s) by (rewrite Eb0; ring). rewrite SA in *. rewrite E3. exists z3, v3. split; [auto|].
      split; [auto|]. split; [rewrite U2, Eb0; ring|]. split; [auto|]. exists (I s). split; [intros; apply HI; auto; apply Qcle_refl|].
      rewrite SA. exact W3.
    + assert (X1 : nltb (endTime x) a = false) by (apply nltb_false; qlra). rewrite X1.
      destruct (ALW ltac:(destruct (Qclt_le_dec 0 a); [auto|exfalso; apply Eb0; qlra]) z3 v3 U1 U2 J3 W3) as (z & v & Z).
      exists z, v. rewrite E3. destruct (computeBoundedGlobally M x a); exact Z.
  - (* the first window ends inside the data *)
    assert (LN : s + d <= e) by (destruct Len as [L|[L _]]; qlra).
    unfold computeTimedUntil. change (nsub d a) with (d - a). change (nopp a) with (- a). change n0 with 0.
    destruct (bounded_ev False M yf y (d - a)) as (z2 & E2 & [Q1 Q2 Q3 Q4 Q5]); auto; try (rewrite ?By; try intros; qlra).
    { intros u H1 H2. rewrite By in H1. apply YB; qlra. }
    rewrite E2. cbn [bind]. rewrite By in Q1.
    destruct (crepQ_front _ _ Q3) as (f2 & l2 & S1 & S2 & S3). rewrite Q1, By in S3. specialize (S3 (or_intror eq_refl)).
    assert (J2 : jfront (s + a) (value f2) z2).
    { eapply crep_jfront; eauto; [rewrite Q2; qlra|]. cbn beta. rewrite By. intros r R. eapply is_sup_unique; [apply R; auto|auto]. }
    rewrite E3. cbn [bind].
    destruct (jfront_And (s + a) (value f2) v3 z2 z3) as (z4 & E4 & B4 & N4 & J4); auto.
    { rewrite Q1, Q2, U1, U2, qmax_same, qmin_r by auto. qlra. }
    rewrite Q1, U1, qmax_same in B4. rewrite Q2, U2, qmin_r in N4 by auto.
    rewrite E4. cbn [bind].
    assert (W4 : is_sup (fun u => qmin (yf u) (I (s + a) u)) (s + a) (qmin (s + d) e) (qmin (value f2) v3)).
    { replace (s + d) with (s + a + (d - a)) by ring. apply (until_window yf (I (s + a)) (s + a) (d - a) e (endTime y)); try qlra; auto.
      intros u u' H1 H2 H3. apply (inf_anti xf s e I HI); qlra. }
    qtest (nltb 0 a).
    + destruct (ALW ltac:(assumption) z4 _ B4 N4 J4 W4) as (z & v & Z). exists z, v. exact Z.
    + assert (AZ : a = 0) by qlra.
      assert (J1 : jfront s (xf s) x).
      { eapply crep_jfront; eauto. qlra. }
      replace (s + a) with s in J4, B4 by (rewrite AZ; ring).
      destruct (jfront_And s _ _ _ _ J1 J4) as (z & E5 & B5 & N5 & J5).
      { fold s. rewrite B4, N4, qmax_same, qmin_r by auto. qlra. }
      fold s in B5, N5. rewrite B4, qmax_same in B5. rewrite N4, qmin_r in N5 by auto.
      exists z, (qmin (xf s) (qmin (value f2) v3)). split; [auto|]. split; [auto|]. split; [rewrite N5, AZ; ring|]. split; [auto|].
      apply (window_parts xf yf s e I HI); auto; try qlra.
      replace (s + a) with s by (rewrite AZ; ring). split; [intros r R1 R2; replace r with s by qlra; qlra|intros r R; apply R; qlra].
Qed.
End Timed.
