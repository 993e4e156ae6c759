(** The operators on signals never fail on signals whose first sample is at their
    beginning; nothing else is asked of the samples. *)
From Coq Require Import List QArith Qcanon Bool Lia.
From Verif Require Import Num Base Signal QcTac Spec Robust Repr NegProof SimplifyProof ResizeProof NegTimed.
Import ListNotations.
Local Open Scope Qc_scope.

Definition headed (z : signal Qc) : Prop := exists p l, samples z = p :: l /\ time p = beginTime z.

Lemma headed_cnot : forall z, headed z -> headed (cnot z).
Proof. intros z (p & l & E & T). exists (neg p), (negl l). cbn [compute_not samples beginTime]. rewrite E. auto. Qed.
Lemma headed_shift : forall z a, headed z -> headed (shift z a).
Proof. intros z a (p & l & E & T). unfold shift. cbn [samples beginTime]. rewrite E. eexists _, _. split; [reflexivity|]. cbn [time shift_sample]. rewrite T. reflexivity. Qed.
Lemma headed_end : forall z e, headed z -> headed (mkSig (samples z) (beginTime z) e).
Proof. intros z e H. exact H. Qed.

(** A list whose last element has time at most [b] (the reverse of the samples). *)
Definition based (b : Qc) (l : list smp) : Prop := exists r p, l = r ++ [p] /\ time p <= b.
Lemma based_tl : forall b a l, based b (a :: l) -> b < time a -> based b l.
Proof.
  intros b a l (r & p & E & T) H. destruct r as [|x r]; cbn [app] in E.
  - inversion E; subst. exfalso. qlra.
  - inversion E; subst. exists r, p. auto.
Qed.
Lemma based_not_nil : forall b, ~ based b [].
Proof. intros b (r & p & E & _). destruct r; discriminate. Qed.
Lemma headed_based : forall z b, headed z -> beginTime z <= b -> based b (rev (samples z)).
Proof. intros z b (p & l & E & T) H. rewrite E. exists (rev l), p. split; [reflexivity|]. rewrite T. auto. Qed.

Lemma intersect_ok : forall (i j : smp) s t, valueAt i t < valueAt j t -> valueAt j s < valueAt i s -> exists t', timeIntersect i j = Ok t'.
Proof.
  intros i j s t H1 H2. unfold timeIntersect. rewrite ndiv_some; [cbn [of_div]; eauto|].
  intro C. change (deriv j - deriv i = 0) in C. assert (D : deriv j = deriv i) by qlra.
  unfold valueAt in *. rewrite D in *. clear C D. unfold nadd, nmul, nsub in *. cbn [NumQc] in *.
  assert (value i - deriv i * time i < value j - deriv i * time j) by qlra. qlra.
Qed.
Lemma intersect_ok' : forall (i j : smp) s t, valueAt j t < valueAt i t -> valueAt i s < valueAt j s -> exists t', timeIntersect i j = Ok t'.
Proof. intros i j s t H1 H2. apply (intersect_ok i j t s); auto. Qed.

Lemma value_at_time : forall p : smp, valueAt p (time p) = value p.
Proof. intros p. unfold valueAt, nadd, nmul, nsub. cbn [NumQc]. ring. Qed.

Lemma seg_and_body_safe : forall i z t c j, exists z' c', seg_and_body i z t c j = Ok (z', c').
Proof.
  intros i z t c j. unfold seg_and_body. cbv zeta. repeat qcase; try (do 2 eexists; reflexivity).
  1: destruct (intersect_ok i j (time j) t) as (t' & E); [auto|rewrite value_at_time; auto|].
  2,3: assert (Lt : valueAt j t < valueAt i t) by (destruct (Qcle_lt_or_eq _ _ Eb); [auto|congruence]);
    destruct (intersect_ok' i j (time j) t) as (t' & E); [auto|rewrite value_at_time; auto|].
  all: rewrite E; cbn [bind]; do 2 eexists; reflexivity.
Qed.

Lemma seg_and_last_safe : forall i z t c j, exists p z', seg_and_last i z t c j = Ok (p :: z') /\ time p = time i.
Proof.
  intros i z t c j. unfold seg_and_last. cbv zeta. repeat qcase; try (do 2 eexists; split; reflexivity).
  1: destruct (intersect_ok i j (time i) t) as (t' & E); [auto|rewrite value_at_time; auto|].
  2,3: assert (Lt : valueAt j t < valueAt i t) by (destruct (Qcle_lt_or_eq _ _ Eb); [auto|congruence]);
    destruct (intersect_ok' i j (time i) t) as (t' & E); [auto|rewrite value_at_time; auto|].
  all: rewrite E; cbn [bind]; do 2 eexists; split; reflexivity.
Qed.

Lemma seg_and_loop_safe : forall b i j z t c, b <= time i -> based b j ->
  exists z' t' c' a j', seg_and_loop i z t c j = Ok (z', t', c', a :: j') /\ based b (a :: j') /\ time a <= time i.
Proof.
  intros b i. induction j as [|a j IH]; intros z t c B K; [destruct (based_not_nil _ K)|]. cbn [seg_and_loop]. qcase.
  - destruct (seg_and_body_safe i z t c a) as (z' & c' & E). rewrite E. cbn [bind].
    apply IH; auto. eapply based_tl; eauto. qlra.
  - do 5 eexists. split; [reflexivity|]. auto.
Qed.

Lemma segment_and_safe : forall b z i t j, b <= time i -> based b j ->
  exists p z' a j', computeSegmentAnd z i t j = Ok (p :: z', a :: j') /\ time p = time i /\ based b (a :: j').
Proof.
  intros b z i t j B K. unfold computeSegmentAnd.
  destruct (seg_and_loop_safe b i j z t false B K) as (z' & t' & c' & a & j' & E & K' & _). rewrite E. cbn [bind deref].
  destruct (seg_and_last_safe i z' t' c' a) as (p & z'' & E' & T). rewrite E'. cbn [bind].
  do 4 eexists. split; [reflexivity|]. auto.
Qed.

Lemma partial_and_safe : forall s i z j t, based s i -> based s j ->
  exists p z', computePartialAnd z i j s t = Ok (p :: z') /\ time p = s.
Proof.
  intros s. induction i as [|p i IH]; intros z j t Ki Kj; [destruct (based_not_nil _ Ki)|]. cbn [computePartialAnd]. qcase.
  - destruct (segment_and_safe s z p t j) as (p' & z' & a & j' & E & T & K); [qlra|auto|]. rewrite E. cbn [bind deref].
    apply IH; [eapply based_tl; eauto|]. qcase; [|auto]. cbn [tl]. eapply based_tl; eauto. qlra.
  - qcase.
    + destruct (segment_and_safe s z p t j) as (p' & z' & a & j' & E & T & K); [rewrite Eb0; apply Qcle_refl|auto|].
      rewrite E. cbn [bind]. do 2 eexists. split; [reflexivity|]. congruence.
    + destruct (segment_and_safe s z (mkS s (valueAt p s) (deriv p)) t j) as (p' & z' & a & j' & E & T & K); [apply Qcle_refl|auto|].
      rewrite E. cbn [bind]. do 2 eexists. split; [reflexivity|]. auto.
Qed.

Lemma simplify_loop_safe : forall b n l p d, time p = b -> (length l <= n)%nat ->
  exists f r, simplify_loop n b (l ++ p :: d) = Ok (f :: r) /\ time f = b.
Proof.
  intros b. induction n as [|n IH]; intros l p d T L.
  - destruct l; cbn [length] in L; [|lia]. cbn [app simplify_loop]. qcase; [do 2 eexists; split; [reflexivity|auto]|congruence].
  - destruct l as [|a l]; cbn [app simplify_loop].
    + qcase; [do 2 eexists; split; [reflexivity|auto]|congruence].
    + cbn [length] in L. qcase; [do 2 eexists; split; [reflexivity|auto]|].
      destruct (exists_last (l := a :: l ++ p :: d)) as (r & bk & EQ); [discriminate|].
      rewrite EQ, back_app. cbn [bind].
      destruct (negb (neqb (valueAt bk (time a)) (value a)) || negb (neqb (deriv bk) (deriv a))).
      * rewrite <- app_assoc. cbn [app]. apply IH; auto. lia.
      * apply IH; auto. lia.
Qed.

Lemma simplify_safe : forall x, headed x -> exists z, simplify x = Ok z /\ headed z /\ beginTime z = beginTime x /\ endTime z = endTime x.
Proof.
  intros x (p & l & E & T). unfold simplify. rewrite E.
  destruct (simplify_loop_safe (beginTime x) (2 * length (p :: l)) l p [] T) as (f & r & E' & T'); [cbn [length]; lia|].
  rewrite E'. cbn [bind]. destruct (exists_last (l := f :: r)) as (d & bk & EQ); [discriminate|]. rewrite EQ, back_app. cbn [bind].
  eexists. split; [reflexivity|]. split; [|auto]. rewrite <- EQ. unfold headed. cbn [samples beginTime].
  destruct (nltb (time bk) (endTime x)); cbn [app]; (do 2 eexists; split; [reflexivity|exact T']).
Qed.

Lemma skip_guarded_safe : forall b e l, based b l -> exists i, skip_guarded e l = Ok i /\ based b i.
Proof.
  intros b e. induction l as [|p l IH]; intros K; [destruct (based_not_nil _ K)|]. cbn [skip_guarded].
  destruct (nleb e (time p)); [|eauto]. destruct l as [|p' l]; [eauto|]. apply IH.
  destruct K as (r & a & E & T). destruct r as [|x r]; [discriminate|]. inversion E. exists r, a. auto.
Qed.

Lemma skip_unguarded_safe : forall b e l, based b l -> b < e -> exists i, skip_unguarded e l = Ok i /\ based b i.
Proof.
  intros b e. induction l as [|p l IH]; intros K H; [destruct (based_not_nil _ K)|]. cbn [skip_unguarded]. qcase; [|eauto].
  apply IH; auto. eapply based_tl; eauto. qlra.
Qed.

Lemma fmax_le : forall a b : Qc, a <= fmax a b /\ b <= fmax a b.
Proof. intros a b. unfold fmax. qcase; split; qlra. Qed.

Lemma compute_and_safe : forall x y, headed x -> headed y -> exists z, compute_and x y = Ok z /\ headed z /\
  beginTime z = fmax (beginTime x) (beginTime y) /\ endTime z = fmin (endTime x) (endTime y).
Proof.
  intros x y Hx Hy. unfold compute_and. cbv zeta. destruct (fmax_le (beginTime x) (beginTime y)) as [L1 L2].
  destruct (skip_guarded_safe _ (fmin (endTime x) (endTime y)) _ (headed_based x _ Hx L1)) as (i & E1 & K1).
  destruct (skip_guarded_safe _ (fmin (endTime x) (endTime y)) _ (headed_based y _ Hy L2)) as (j & E2 & K2).
  rewrite E1. cbn [bind]. rewrite E2. cbn [bind].
  destruct (partial_and_safe _ i [] j (fmin (endTime x) (endTime y)) K1 K2) as (p & z & E & T). rewrite E. cbn [bind].
  destruct (simplify_safe (mkSig (p :: z) (fmax (beginTime x) (beginTime y)) (fmin (endTime x) (endTime y)))) as (z' & E' & H' & B').
  - do 2 eexists. split; [reflexivity|exact T].
  - exists z'. auto.
Qed.

Lemma computeAnd_safe : forall x y, headed x -> headed y -> fmax (beginTime x) (beginTime y) < fmin (endTime x) (endTime y) ->
  exists z, computeAnd x y = Ok z /\ headed z /\
    beginTime z = fmax (beginTime x) (beginTime y) /\ endTime z = fmin (endTime x) (endTime y).
Proof.
  intros x y Hx Hy Lt. unfold computeAnd. cbv zeta. destruct (fmax_le (beginTime x) (beginTime y)) as [L1 L2].
  destruct (skip_unguarded_safe _ (fmin (endTime x) (endTime y)) _ (headed_based x _ Hx L1) Lt) as (i & E1 & K1).
  destruct (skip_unguarded_safe _ (fmin (endTime x) (endTime y)) _ (headed_based y _ Hy L2) Lt) as (j & E2 & K2).
  rewrite E1. cbn [bind]. rewrite E2. cbn [bind].
  destruct (partial_and_safe _ i [] j (fmin (endTime x) (endTime y)) K1 K2) as (p & z & E & T). rewrite E. cbn [bind].
  destruct (simplify_safe (mkSig (p :: z) (fmax (beginTime x) (beginTime y)) (fmin (endTime x) (endTime y)))) as (z' & E' & H' & B').
  - do 2 eexists. split; [reflexivity|exact T].
  - exists z'. auto.
Qed.

Lemma compute_or_safe : forall x y, headed x -> headed y -> exists z, compute_or x y = Ok z /\ headed z /\
  beginTime z = fmax (beginTime x) (beginTime y) /\ endTime z = fmin (endTime x) (endTime y).
Proof.
  intros x y Hx Hy. rewrite compute_or_neg.
  destruct (compute_and_safe (cnot x) (cnot y)) as (z & E & H & B); [apply headed_cnot; auto..|].
  rewrite E. eexists. split; [reflexivity|]. split; [apply headed_cnot; auto|exact B].
Qed.
Lemma computeOr_safe : forall x y, headed x -> headed y -> fmax (beginTime x) (beginTime y) < fmin (endTime x) (endTime y) ->
  exists z, computeOr x y = Ok z /\ headed z /\
    beginTime z = fmax (beginTime x) (beginTime y) /\ endTime z = fmin (endTime x) (endTime y).
Proof.
  intros x y Hx Hy Lt. rewrite computeOr_neg.
  destruct (computeAnd_safe (cnot x) (cnot y)) as (z & E & H & B); [apply headed_cnot; auto..|exact Lt|].
  rewrite E. eexists. split; [reflexivity|]. split; [apply headed_cnot; auto|exact B].
Qed.

(** ** resize *)
Lemma front_safe : forall x s, headed x \/ (samples x = [] /\ beginTime x <= s) ->
  exists f l e, resize_front x s = Ok (f :: l, e) /\ time f = s.
Proof.
  intros x s H. unfold resize_front. qcase.
  - destruct H as [(p & l & E & T)|[_ H]]; [|exfalso; qlra]. rewrite E. cbn [deref bind]. do 3 eexists. split; [reflexivity|reflexivity].
  - clear H. assert (G : forall l d, match pop_front_lt s d l with (_, []) => True | (_, f :: _) => s <= time f end).
    { induction l as [|p l IH]; intros d; cbn [pop_front_lt]; [exact I|]. qcase; [apply IH|auto]. }
    specialize (G (samples x) default_sample). destruct (pop_front_lt s default_sample (samples x)) as [first [|f l]].
    + do 3 eexists. split; reflexivity.
    + qcase; do 3 eexists; (split; [reflexivity|]); [reflexivity|]. apply Qcle_antisym; auto.
Qed.

Lemma pop_back_head : forall A (f : A -> bool) a l, f a = false -> exists r, pop_back_while f (a :: l) = a :: r.
Proof.
  intros A f a l H. unfold pop_back_while. cbn [rev]. induction (rev l) as [|b r IH]; cbn [app drop_while].
  - rewrite H. eexists. reflexivity.
  - destruct (f b); [exact IH|]. rewrite rev_unit || idtac. cbn [rev]. rewrite rev_app_distr. cbn [rev app]. eexists. reflexivity.
Qed.

Lemma back_safe : forall f l e s t v, time f = s -> s <= t -> exists r, resize_back (f :: l) e s t v = Ok (f :: r).
Proof.
  intros f l e s t v T H. unfold resize_back. qcase.
  - destruct (exists_last (l := f :: l)) as (d & bk & EQ); [discriminate|]. rewrite EQ, back_app. rewrite <- EQ. cbn [bind].
    destruct (negb (neqb (value bk) v) || negb (neqb (deriv bk) n0)); cbn [app]; eauto.
  - destruct (pop_back_head _ (fun p => nltb t (time p)) f l) as (r & E); [apply nltb_false; rewrite T; auto|].
    rewrite E. cbn [bind]. eauto.
Qed.

(** A resized signal is headed, or empty when the new end is too early. *)
Lemma resize_safe : forall x s t v, headed x \/ (samples x = [] /\ beginTime x <= s) ->
  exists z, resize x s t v = Ok z /\
    ((t < s - neps /\ z = empty_signal) \/ (headed z /\ beginTime z = s /\ endTime z = (if nltb t s then s else t))).
Proof.
  intros x s t v H. unfold resize. qcase.
  - exists empty_signal. split; [reflexivity|]. left. split; [exact Eb|reflexivity].
  - destruct (front_safe x s H) as (f & l & e & E & T). rewrite E. cbn [bind].
    destruct (back_safe f l e s (if nltb t s then s else t) v T) as (r & E'); [qcase; qlra|]. rewrite E'. cbn [bind].
    eexists. split; [reflexivity|]. right. split; [do 2 eexists; split; [reflexivity|exact T]|]. split; reflexivity.
Qed.

Lemma resize_some_safe : forall x s t v, headed x \/ (samples x = [] /\ beginTime x <= s) -> s <= t ->
  exists z, resize x s t v = Ok z /\ headed z /\ beginTime z = s /\ endTime z = t.
Proof.
  intros x s t v H L. destruct (resize_safe x s t v H) as (z & E & [[C _]|(H1 & H2 & H3)]).
  - exfalso. assert (0 < neps) by reflexivity. qlra.
  - exists z. split; [auto|]. split; [auto|]. split; [auto|]. rewrite H3. qcase; [exfalso; qlra|auto].
Qed.

(** ** Temporal operators *)
Section M.
Variable M : Qc.

Lemma partial_ev_loop_safe : forall s i z t c m, based s i ->
  exists z' t' c' m' a i', partial_ev_loop z i s t c m = Ok (z', t', c', m', a :: i') /\ time a <= s.
Proof.
  intros s. induction i as [|p i IH]; intros z t c m K; [destruct (based_not_nil _ K)|]. cbn [partial_ev_loop]. qcase.
  - assert (K' : based s i) by (eapply based_tl; eauto).
    repeat qcase; cbn [bind]; try (apply IH; auto; fail);
      (rewrite ndiv_some by (intro; qlra); cbn [of_div bind]; apply IH; auto).
  - do 6 eexists. split; [reflexivity|auto].
Qed.

Lemma partial_ev_last_safe : forall z p s t c m, exists q z', partial_ev_last z p s t c m = Ok (q :: z') /\ time q = s.
Proof.
  intros z p s t c m. unfold partial_ev_last. cbv zeta. repeat qcase; try (do 2 eexists; split; reflexivity);
    (rewrite ndiv_some by (intro; qlra); cbn [of_div bind]; do 2 eexists; split; reflexivity).
Qed.

Lemma eventually_safe : forall x, headed x -> exists z, computeEventually M x = Ok z /\ headed z /\
  beginTime z = beginTime x /\ endTime z = endTime x.
Proof.
  intros x H. unfold computeEventually, compute_eventually, computePartialEventually. cbn [samples empty_signal].
  destruct (partial_ev_loop_safe (beginTime x) (rev (samples x)) [] (endTime x) false (BOTTOM M)) as (z' & t' & c' & m' & a & i' & E & T).
  - apply headed_based; [auto|apply Qcle_refl].
  - rewrite E. cbn [bind deref]. destruct (partial_ev_last_safe z' a (beginTime x) t' c' m') as (q & z'' & E' & T'). rewrite E'. cbn [bind].
    eexists. split; [reflexivity|]. split; [do 2 eexists; split; [reflexivity|exact T']|]. split; reflexivity.
Qed.

Lemma pre_times : forall l t v y, map fst (plateau_max_pre l t v y) = rev (removelast (t :: map time l)) ++ map fst y \/ l = [].
Proof.
  induction l as [|p l IH]; intros t v y; [auto|]. left. cbn [plateau_max_pre map].
  destruct (IH (time p) (value p) ((t, fmax v (valueAt p t)) :: y)) as [E|E].
  - rewrite E. cbn [map fst]. change (removelast (t :: time p :: map time l)) with (t :: removelast (time p :: map time l)).
    cbn [rev]. rewrite <- app_assoc. reflexivity.
  - subst l. reflexivity.
Qed.
Lemma pre_last : forall l t v y, l <> [] -> exists r w, plateau_max_pre l t v y = r ++ (t, w) :: y.
Proof.
  induction l as [|p l IH]; intros t v y N; [congruence|]. cbn [plateau_max_pre]. destruct l as [|p' l].
  - exists [], (fmax v (valueAt p t)). reflexivity.
  - destruct (IH (time p) (value p) ((t, fmax v (valueAt p t)) :: y)) as (r & w & E); [discriminate|]. rewrite E.
    exists (r ++ [(time p, w)]), (fmax v (valueAt p t)). rewrite <- app_assoc. reflexivity.
Qed.

Lemma init_safe : forall lim i Mq, (exists p, In p i /\ lim <= fst p) ->
  exists Mq' a i', plateau_max_init lim Mq i = Ok (Mq', a :: i') /\ (length Mq' + length (a :: i') <= length Mq + length i)%nat.
Proof.
  intros lim. induction i as [|p i IH]; intros Mq (p0 & I & L); [destruct I|]. cbn [plateau_max_init]. qcase.
  - destruct I as [->|I]; [exfalso; qlra|].
    destruct (IH (pop_back_while (fun q => nleb (snd q) (snd p)) Mq ++ [p])) as (Mq' & a & i' & E & B); [eauto|].
    do 3 eexists. split; [exact E|]. rewrite app_length in B. cbn [length] in *.
    assert (length (pop_back_while (fun q => nleb (snd q) (snd p)) Mq) <= length Mq)%nat; [|lia].
    unfold pop_back_while. rewrite rev_length, <- (rev_length Mq). clear. induction (rev Mq) as [|b r IH]; cbn [drop_while length]; [lia|].
    destruct (nleb (snd b) (snd p)); cbn [length]; lia.
  - do 3 eexists. split; [reflexivity|lia].
Qed.

Lemma next_safe : forall (a : Qc) (Mq i : list (Qc * Qc)) t t' nc ec, plateau_next a Mq i t = (t', nc, ec) ->
  (nc = true -> i <> []) /\ (ec = true -> Mq <> []).
Proof.
  intros a [|m Mq] [|p i] t t' nc ec H; cbn [plateau_next] in H; inversion H; subst; split; discriminate.
Qed.

Lemma loop_safe : forall n a Mq i t nc ec (z : list smp), (nc = true -> i <> []) -> (ec = true -> Mq <> []) ->
  (2 * length i + length Mq + (if nc || ec then 0 else 1) < n)%nat ->
  exists z' r, plateau_max_loop M n a Mq i t nc ec z = Ok (z ++ mkS t z' n0 :: r).
Proof.
  induction n as [|n IH]; intros a Mq i t nc ec z N1 N2 F; [lia|]. cbn [plateau_max_loop].
  assert (E1 : exists M1, (if ec then match Mq with [] => UB | _ :: q => Ok q end else Ok Mq) = Ok M1 /\ (length M1 + (if ec then 1 else 0) = length Mq)%nat).
  { destruct ec; [|exists Mq; split; [auto|lia]]. destruct Mq; [destruct (N2 eq_refl eq_refl)|]. eexists. split; [reflexivity|]. cbn [length]. lia. }
  destruct E1 as (M1 & E1 & L1). rewrite E1. cbn [bind].
  assert (E2 : exists M2 i2, (if nc then p <- deref i ;; Ok (pop_back_while (fun q => nleb (snd q) (snd p)) M1 ++ [p], tl i) else Ok (M1, i)) = Ok (M2, i2) /\
    (2 * length i2 + length M2 + (if nc then 1 else 0) <= 2 * length i + length M1)%nat).
  { destruct nc; [|exists M1, i; split; [auto|lia]]. destruct i as [|p i]; [destruct (N1 eq_refl eq_refl)|]. cbn [deref bind tl].
    do 2 eexists. split; [reflexivity|]. rewrite app_length. cbn [length].
    assert (length (pop_back_while (fun q => nleb (snd q) (snd p)) M1) <= length M1)%nat; [|lia].
    unfold pop_back_while. rewrite rev_length, <- (rev_length M1). clear. induction (rev M1) as [|b r IH]; cbn [drop_while length]; [lia|].
    destruct (nleb (snd b) (snd p)); cbn [length]; lia. }
  destruct E2 as (M2 & i2 & E2 & L2). rewrite E2. cbn [bind]. cbv zeta.
  destruct (plateau_next a M2 i2 t) as [[t3 nc3] ec3] eqn:E3. destruct (next_safe _ _ _ _ _ _ _ E3) as [N3 N4].
  destruct (nc3 || ec3) eqn:E4.
  - destruct (IH a M2 i2 t3 nc3 ec3 (z ++ [mkS t (match M2 with [] => BOTTOM M | m :: _ => snd m end) n0]) N3 N4) as (z' & r & E).
    + rewrite E4. destruct nc, ec; cbn [orb] in F; lia.
    + rewrite E. rewrite <- app_assoc. cbn [app]. eauto.
  - eauto.
Qed.

Lemma plateau_safe : forall x a, headed x -> beginTime x + a < endTime x -> beginTime x < endTime x ->
  exists z, plateauMax M x a = Ok z /\ headed z /\ beginTime z = beginTime x /\ endTime z = endTime x.
Proof.
  intros x a (f & l & E & T) L L0. unfold plateauMax. rewrite E. cbn [deref bind].
  destruct (pre_last (rev (f :: l)) (endTime x) (BOTTOM M) []) as (r & w & EP). { cbn [rev]. intro C. apply app_eq_nil in C. destruct C; discriminate. }
  set (y := (time f, value f) :: plateau_max_pre (rev (f :: l)) (endTime x) (BOTTOM M) []).
  destruct (init_safe (beginTime x + a) y []) as (Mq & p & i & EI & LI).
  { exists (endTime x, w). split; [|cbn [fst]; qlra]. right. rewrite EP. apply in_or_app. right. left. reflexivity. }
  change (nadd (beginTime x) a) with (beginTime x + a). rewrite EI. cbn [bind deref].
  destruct (loop_safe (2 * length y + 2) a Mq (p :: i) (beginTime x) (neqb (fst p) (beginTime x + a)) false []) as (v & z & EL).
  - discriminate.
  - discriminate.
  - cbn [length] in *. destruct (neqb (fst p) (beginTime x + a)); cbn [orb]; lia.
  - rewrite EL. cbn [bind app]. unfold drop_last_at.
    destruct (exists_last (l := mkS (beginTime x) v n0 :: z)) as (d & bk & EQ); [discriminate|]. rewrite EQ, rev_unit. rewrite <- EQ.
    qcase; cbn [bind]; (eexists; split; [reflexivity|]; split; [|split; reflexivity]).
    + rewrite rev_involutive. destruct d as [|q d]; cbn [app] in EQ.
      * inversion EQ; subst. cbn [time] in Eb. exfalso. qlra.
      * inversion EQ. do 2 eexists. split; reflexivity.
    + do 2 eexists. split; reflexivity.
Qed.

Lemma fmax_same : forall a : Qc, fmax a a = a.
Proof. intros a. unfold fmax. qcase; auto. Qed.
Lemma fmin_same : forall a : Qc, fmin a a = a.
Proof. intros a. unfold fmin. qcase; auto. Qed.

Lemma bounded_safe : forall x a, headed x -> 0 < a -> beginTime x + a < endTime x ->
  exists z, computeBoundedEventually M x a = Ok z /\ headed z /\ beginTime z = beginTime x /\ endTime z = endTime x.
Proof.
  intros x a H A L. assert (L0 : beginTime x < endTime x) by qlra. unfold computeBoundedEventually.
  destruct (plateau_safe x a H L L0) as (z1 & E1 & H1 & B1 & F1). rewrite E1. cbn [bind].
  destruct (resize_some_safe x (beginTime x + a) (endTime x + a) (BOTTOM M)) as (z2 & E2 & H2 & B2 & F2); [auto|qlra|].
  change (nadd (beginTime x) a) with (beginTime x + a). change (nadd (endTime x) a) with (endTime x + a). rewrite E2. cbn [bind].
  cbv zeta. set (z2' := shift z2 (nopp a)).
  assert (B2' : beginTime z2' = beginTime x) by (unfold z2', shift; cbn [beginTime]; rewrite B2; change (beginTime x + a + - a = beginTime x); ring).
  assert (F2' : endTime z2' = endTime x) by (unfold z2', shift; cbn [endTime]; rewrite F2; change (endTime x + a + - a = endTime x); ring).
  destruct (computeOr_safe z2' z1) as (z3 & E3 & H3 & B3 & F3); [apply headed_shift; auto|auto| |].
  { rewrite B1, F1, B2', F2', fmax_same, fmin_same. auto. }
  rewrite B1, B2', fmax_same in B3. rewrite F1, F2', fmin_same in F3. rewrite E3. cbn [bind].
  destruct (computeOr_safe x z3) as (z4 & E4 & H4 & B4 & F4); [auto|auto| |].
  { rewrite B3, F3, fmax_same, fmin_same. auto. }
  rewrite B3, fmax_same in B4. rewrite F3, fmin_same in F4. rewrite E4. cbn [bind].
  destruct (simplify_safe z4 H4) as (z5 & E5 & H5 & B5 & F5). exists z5. split; [auto|]. split; [auto|]. split; congruence.
Qed.

(** The shifted domain. *)
Definition back_by (a t : Qc) : Qc := if Qclt_le_dec 0 a then t - a else t.
Lemma timed_ev_safe : forall self x a b, headed x -> exists z, compute_timed_eventually M self x a b = Ok z /\ headed z /\
  beginTime z = back_by a (beginTime x) /\ endTime z = back_by a (endTime x).
Proof.
  intros self x a b H. assert (N : samples x <> []) by (destruct H as (p & l & E & _); rewrite E; discriminate).
  unfold compute_timed_eventually. destruct (samples x) eqn:Es; [congruence|]. clear Es N.
  set (y := if nltb n0 a then shift x (nopp a) else x).
  assert (Hy : headed y) by (unfold y; destruct (nltb n0 a); [apply headed_shift|]; auto).
  assert (By : beginTime y = back_by a (beginTime x) /\ endTime y = back_by a (endTime x)).
  { unfold y, back_by. destruct (nltb n0 a) eqn:Ea; qb; destruct (Qclt_le_dec 0 a); try (split; reflexivity); exfalso; qlra. }
  destruct By as [<- <-]. cbv zeta. repeat qcase.
  - exists y. auto.
  - apply eventually_safe; auto.
  - apply bounded_safe; auto; qlra.
Qed.

Lemma timed_alw_safe : forall self x a b, headed x -> exists z, compute_timed_globally M self x a b = Ok z /\ headed z /\
  beginTime z = back_by a (beginTime x) /\ endTime z = back_by a (endTime x).
Proof.
  intros self x a b H. rewrite timed_globally_dual.
  destruct (timed_ev_safe (cnot self) (cnot x) a b (headed_cnot _ H)) as (z & E & H' & B). rewrite E.
  eexists. split; [reflexivity|]. split; [apply headed_cnot; auto|exact B].
Qed.
End M.
