(** Signals with all values in [[-M,M]], through every routine. *)
From Coq Require Import List QArith Qcanon Bool Lia.
From Verif Require Import Num Base Signal QcTac Spec Robust Repr AndProof NegProof SimplifyProof Lip BoolOps Closed SigProof ResizeProof NegTimed EvProof PlateauProof BoundedProof SafeSignal.
Import ListNotations.
Local Open Scope Qc_scope.

Section M.
Variable M : Qc.
Hypothesis HM : 0 <= M.

Definition W (u v : Qc) : Prop := - M <= v /\ v <= M.

(** All pieces, closed, stay within. *)
Definition inW (x : signal Qc) : Prop := crepQ W x.

Lemma W_min : forall u v w, W u v -> W u w -> W u (qmin v w).
Proof. intros u v w [A1 A2] [B1 B2]. destruct (qmin_cases v w) as [[-> _]|[-> _]]; split; auto. Qed.
Lemma W_max : forall u v w, W u v -> W u w -> W u (qmax v w).
Proof. intros u v w [A1 A2] [B1 B2]. destruct (qmax_cases v w) as [[-> _]|[-> _]]; split; auto. Qed.
Lemma W_bottom : forall u, W u (- M).
Proof. intros u. split; qlra. Qed.
Lemma W_top : forall u, W u M.
Proof. intros u. split; qlra. Qed.
Lemma W_zero : forall u, W u 0.
Proof. intros u. split; qlra. Qed.

Lemma inW_headed : forall x, inW x -> headed x.
Proof. intros x H. destruct (crepQ_front _ _ H) as (p & l & E & T & _). exists p, l. auto. Qed.
Lemma inW_dom : forall x, inW x -> beginTime x <= endTime x.
Proof. apply crepQ_dom. Qed.
Lemma inW_front : forall x, inW x -> exists v, (f <- deref (samples x) ;; Ok (value f)) = Ok v /\ - M <= v /\ v <= M.
Proof.
  intros x H. destruct (crepQ_front _ _ H) as (p & l & E & T & V). rewrite E. exists (value p). split; [reflexivity|exact V].
Qed.
Lemma inW_cnot : forall x, inW x -> inW (cnot x).
Proof.
  intros x H. destruct (crepQ_neg _ _ H) as [N R]. split; [exact N|]. eapply prepQ_impl; [exact R|].
  intros u v _ _ [A B]. split; qlra.
Qed.
Lemma inW_shift : forall x a, inW x -> inW (shift x a).
Proof. intros x a H. exact (crepQ_shift _ x a H). Qed.

Lemma inW_const : forall s e v, s <= e -> W s v -> inW (mkSig [mkS s v 0] s e).
Proof.
  intros s e v H V. split; [discriminate|]. cbn [samples beginTime endTime]. apply prep_cons with (t' := e); auto; [|constructor].
  intros u _ _. rewrite line0. exact V.
Qed.

Lemma and_inW : forall x y, inW x -> inW y -> qmax (beginTime x) (beginTime y) <= qmin (endTime x) (endTime y) ->
  exists z, compute_and x y = Ok z /\ inW z /\ beginTime z = qmax (beginTime x) (beginTime y) /\ endTime z = qmin (endTime x) (endTime y).
Proof.
  intros x y X Y H. destruct (compute_and_q x y W W W) as (z & E & [B1 B2 R _ _]); auto.
  { intros u v w _ _. apply W_min. }
  exists z. auto.
Qed.
Lemma or_inW : forall x y, inW x -> inW y -> qmax (beginTime x) (beginTime y) <= qmin (endTime x) (endTime y) ->
  exists z, compute_or x y = Ok z /\ inW z /\ beginTime z = qmax (beginTime x) (beginTime y) /\ endTime z = qmin (endTime x) (endTime y).
Proof.
  intros x y X Y H. destruct (compute_or_q x y W W W) as (z & E & [B1 B2 R _ _]); auto.
  { intros u v w _ _. apply W_max. }
  exists z. auto.
Qed.
Lemma computeOr_inW : forall x y b e, inW x -> inW y -> beginTime x = b -> beginTime y = b -> endTime x = e -> endTime y = e -> b < e ->
  exists z, computeOr x y = Ok z /\ qres z b e W.
Proof.
  intros x y b e X Y B1 B2 E1 E2 H. 
  assert (Hb : qmax (beginTime x) (beginTime y) = b) by (rewrite B1, B2; apply qmax_l; qlra).
  assert (He : qmin (endTime x) (endTime y) = e) by (rewrite E1, E2; apply qmin_l; qlra).
  destruct (computeOr_q x y W W W) as (z & E & R); auto.
  - rewrite Hb, He. qlra.
  - intros u v w _ _. apply W_max.
  - rewrite Hb, He. exact H.
  - rewrite Hb, He in R. eauto.
Qed.

(** ** resize *)
Lemma front_inW : forall x s, inW x -> s <= endTime x ->
  exists l, resize_front x s = Ok (l, endTime x) /\ l <> [] /\ prepQ true W (endTime x) l s.
Proof.
  intros x s R H. destruct (Qclt_le_dec s (beginTime x)) as [L|L].
  - unfold resize_front. assert (B : nltb s (beginTime x) = true) by (apply nltb_true; auto). rewrite B.
    destruct (crepQ_front _ _ R) as (p & l & E & T & V). rewrite E. cbn [deref bind]. eexists. split; [reflexivity|].
    split; [discriminate|]. destruct R as [_ R]. rewrite E in R. apply prep_cons with (t' := beginTime x); auto; [qlra|].
    intros u _ _. change n0 with 0. rewrite line0. exact V.
  - destruct (resize_front_q W x s R L H) as (l & e' & E & P & N & Ee & Ge & I1 & I2).
    destruct Ee as [-> | ->]; [eauto|].
    destruct (existsb (fun q => nleb s (time q)) (samples x)) eqn:Ex.
    { apply existsb_exists in Ex. destruct Ex as (q & J & T). qb. assert (G : s = endTime x) by eauto. exists l. split; [exact E|]. split; [exact N|]. rewrite <- G. exact P. }
    (* a single constant piece *)
    unfold resize_front in *. assert (B : nltb s (beginTime x) = false) by (apply nltb_false; auto). rewrite B in *.
    pose proof (pop_front_spec s (samples x) default_sample) as (pre & K).
    destruct (pop_front_lt s default_sample (samples x)) as [f l']. destruct K as (K1 & K2 & K3 & K4).
    destruct l' as [|q l'].
    + assert (B2 : nltb (endTime x) s = false) by (apply nltb_false; auto). rewrite B2 in *. injection E as <-.
      eexists. split; [reflexivity|]. split; [discriminate|].
      inversion P as [|? ? ? t' A1 A2 A3 A4]; subst. apply prep_cons with (t' := endTime x); auto; [|constructor].
      intros u _ _. change n0 with 0. rewrite line0. specialize (A3 s). change n0 with 0 in A3. rewrite line0 in A3. apply A3; cbn; qlra.
    + exfalso. assert (C : existsb (fun q => nleb s (time q)) (samples x) = true); [|congruence].
      apply existsb_exists. exists q. split; [rewrite K1; apply in_or_app; right; left; reflexivity|]. apply nleb_true. exact K3.
Qed.

Lemma resize_inW : forall x s t v, inW x -> s <= endTime x -> s <= t -> W s v ->
  exists z, resize x s t v = Ok z /\ inW z /\ beginTime z = s /\ endTime z = t.
Proof.
  intros x s t v R H L V. unfold resize. rewrite eps_lt by auto. assert (B : nltb t s = false) by (apply nltb_false; auto). rewrite B.
  destruct (front_inW x s R H) as (l & E & N & P). rewrite E. cbn [bind]. unfold resize_back.
  destruct (nltb (endTime x) t) eqn:C; qb.
  - destruct (exists_last N) as (r & bk & El). rewrite El, back_app. cbn [bind]. rewrite <- El.
    assert (G : exists l', (if negb (neqb (value bk) v) || negb (neqb (deriv bk) n0) then l ++ [mkS (endTime x) v n0] else l) = l' /\
      l' <> [] /\ prepQ true W t l' s).
    { eexists. split; [reflexivity|]. destruct (negb (neqb (value bk) v) || negb (neqb (deriv bk) n0)) eqn:D.
      - split; [destruct l; discriminate|]. apply prepQ_app. exists (endTime x). split; [exact P|].
        apply prep_cons with (t' := t); auto; [qlra| |constructor]. intros u _ _. change n0 with 0. rewrite line0. exact V.
      - split; [exact N|]. apply orb_false_iff in D. destruct D as [D1 D2]. rewrite negb_false_iff in D1, D2. qb. change n0 with 0 in D2.
        rewrite El in P |- *. apply prepQ_app in P. destruct P as (t1 & P1 & P2). apply prepQ_app. exists t1. split; [exact P1|].
        inversion P2 as [|? ? ? t2 A1 A2 A3 A4]; subst. inversion A4; subst. apply prep_cons with (t' := t); auto; [qlra| |constructor].
        intros u _ _. unfold line. rewrite D2. replace (value bk + 0 * (u - time bk)) with (value bk) by ring. exact V. }
    destruct G as (l' & -> & N' & P'). destruct l' as [|p l']; [congruence|].
    eexists. split; [reflexivity|]. cbn [beginTime endTime]. split; [|auto]. split; [discriminate|exact P'].
  - cbn [bind]. destruct (prepQ_cut W (endTime x) l s t P N L C) as [N' P'].
    destruct (pop_back_while (fun p => nltb t (time p)) l) as [|p l']; [congruence|].
    eexists. split; [reflexivity|]. cbn [beginTime endTime]. split; [|auto]. split; [discriminate|exact P'].
Qed.

(** ** Eventually *)
Lemma ev_body_inW : forall e p z t c m, time p <= t ->
  (forall u, time p <= u -> u <= t -> W u (line p u)) -> W t m -> prepQ true W e (pend c t m z) t ->
  exists z' c' m', ev_body z p t c m = Ok (z', c', m') /\ W t m' /\ prepQ true W e (pend c' (time p) m' z') (time p).
Proof.
  intros e p z t c m H L Wm P. pose proof (value_line p) as VL.
  assert (Wp : forall u, W u (line p t)) by (intros u; apply (L t); [auto|apply Qcle_refl]).
  assert (Wv : forall u, W u (value p)) by (intros u; rewrite <- VL; apply (L (time p)); [apply Qcle_refl|auto]).
  assert (EXT : forall t0, t0 <= t -> prepQ true W e (mkS t0 m 0 :: z) t0).
  { intros t0 T0. destruct c; cbn [pend] in P.
    - inversion P as [|? ? ? t' A1 A2 A3 A4]; subst. apply prep_cons with (t' := t'); auto; [qlra|].
      intros u _ _. rewrite line0. exact Wm.
    - apply prep_cons with (t' := t); auto. intros u _ _. rewrite line0. exact Wm. }
  unfold ev_body. vline. change n0 with 0. destruct (nleb 0 (deriv p)) eqn:D; qb.
  - destruct (nltb m (line p t)) eqn:B; qb.
    + do 3 eexists. split; [reflexivity|]. split; [apply Wp|]. cbn [pend]. fold (pend c t m z).
      apply prep_cons with (t' := t); auto. intros u _ _. rewrite line0. apply Wp.
    + do 3 eexists. split; [reflexivity|]. split; [exact Wm|]. cbn [pend]. apply EXT; auto.
  - destruct (nleb m (line p t)) eqn:B; qb.
    + do 3 eexists. split; [reflexivity|]. split; [apply Wv|]. cbn [pend]. fold (pend c t m z).
      apply prep_cons with (t' := t); auto.
    + destruct (nleb (value p) m) eqn:B2; qb.
      * do 3 eexists. split; [reflexivity|]. split; [exact Wm|]. cbn [pend]. apply EXT; auto.
      * rewrite ndiv_some by (intro; qlra). cbn [of_div bind].
        change (nsub m (value p)) with (m - value p).
        assert (Q0 : 0 < (m - value p) / deriv p /\ line p (time p + (m - value p) / deriv p) = m).
        { split; [qdiv (m - value p) (deriv p); qnra|]. unfold line. field. intro; qlra. }
        destruct Q0 as [Q0 Q1']. change (nadd (time p)) with (Qcplus (time p)).
        set (tc := time p + (m - value p) / deriv p) in *.
        assert (T1 : time p < tc) by (unfold tc; qlra).
        assert (T2 : tc < t).
        { apply Qcnot_le_lt. intro C. assert (line p tc <= line p t) by (unfold line; qnra). qlra. }
        do 3 eexists. split; [reflexivity|]. split; [apply Wv|]. cbn [pend].
        apply prep_cons with (t' := tc); auto; [qlra| |].
        -- intros u U1 U2. cbn in U2. apply L; [auto|qlra].
        -- apply EXT. qlra.
Qed.

Lemma ev_loop_inW : forall s e l z t c m, prepQ true W t l s -> l <> [] -> W t m -> prepQ true W e (pend c t m z) t ->
  exists z2 i2, ('(z', t', c', m', i') <- partial_ev_loop z (rev l) s t c m ;;
              p <- deref i' ;; z'' <- partial_ev_last z' p s t' c' m' ;; Ok (z'', i')) = Ok (z2, i2) /\
    prepQ true W e z2 s /\ z2 <> [].
Proof.
  intros s e. induction l as [|p l IH] using rev_ind; intros z t c m P N Wm Pz; [congruence|].
  rewrite rev_app_distr. cbn [rev app].
  apply prepQ_app in P. destruct P as (t' & P1 & P2).
  inversion P2 as [|? ? ? t2 A1 A2 A3 A4]; subst. assert (t2 = t) by (inversion A4; auto). subst t2.
  destruct (ev_body_inW e p z t c m A2 A3 Wm Pz) as (z2 & c2 & m2 & E2 & W2 & R2).
  rewrite partial_ev_loop_eq. destruct (nltb s (time p)) eqn:B; qb.
  - destruct l as [|q l].
    { exfalso. inversion P1; subst. qlra. }
    rewrite E2. cbn [bind]. apply IH; auto. discriminate.
  - cbn [bind deref]. assert (T : time p = s) by (pose proof (prepQ_le _ _ _ _ _ P1); apply Qcle_antisym; auto).
    rewrite partial_ev_last_eq by auto. rewrite E2. cbn [bind]. do 2 eexists. split; [reflexivity|]. rewrite <- T.
    split; [exact R2|]. intro C. rewrite C in R2. destruct c2; cbn [pend] in C; [discriminate|].
    revert E2. unfold ev_body. repeat match goal with |- context [if ?b then _ else _] => destruct b end; intros E2; try discriminate; try (inversion E2; subst; discriminate).
    destruct (of_div _) in E2; cbn [bind] in E2; try discriminate. inversion E2. subst. discriminate.
Qed.

Lemma eventually_inW : forall x, inW x -> exists z, computeEventually M x = Ok z /\ inW z /\
  beginTime z = beginTime x /\ endTime z = endTime x.
Proof.
  intros x [N R]. unfold computeEventually, compute_eventually, computePartialEventually. cbn [samples empty_signal].
  destruct (ev_loop_inW (beginTime x) (endTime x) (samples x) [] (endTime x) false (BOTTOM M) R N) as (z2 & i2 & E & P & NZ).
  - apply (W_bottom (endTime x)).
  - constructor.
  - rewrite E. cbn [bind]. eexists. split; [reflexivity|]. cbn [beginTime endTime]. split; [|auto]. split; auto.
Qed.

(** ** Windows *)
Definition within_pts (y : list pt) : Prop := Forall (fun q => - M <= snd q /\ snd q <= M) y.

Lemma pre_inW : forall l b t v y, prepQ true W t l b -> l <> [] -> W t v -> within_pts y -> psorted y -> Forall (fun q => t <= fst q) y ->
  let r := plateau_max_pre (rev l) t v y in within_pts r /\ psorted r /\ Forall (fun q => b <= fst q) r.
Proof.
  induction l as [|p l IH] using rev_ind; intros b t v y P N V F S G; [congruence|].
  rewrite rev_app_distr. cbn [rev app plateau_max_pre].
  pose proof (prepQ_le _ _ _ _ _ P) as BT.
  apply prepQ_app in P. destruct P as (t' & P1 & P2).
  inversion P2 as [|? ? ? t2 A1 A2 A3 A4]; subst. assert (t2 = t) by (inversion A4; auto). subst t2.
  assert (F' : within_pts ((t, fmax v (valueAt p t)) :: y)).
  { constructor; auto. cbn [snd]. rewrite fmax_q. vline. apply (W_max t); auto. apply A3; [auto|apply Qcle_refl]. }
  assert (S' : psorted ((t, fmax v (valueAt p t)) :: y)) by (cbn [psorted fst]; auto).
  destruct l as [|q l].
  - cbn [rev plateau_max_pre]. split; [exact F'|]. split; [exact S'|]. constructor; [cbn [fst]; exact BT|].
    eapply Forall_impl; [|exact G]. cbn. intros. qlra.
  - apply IH; auto; [discriminate| |].
    + rewrite <- (value_line p). apply A3; [apply Qcle_refl|auto].
    + constructor; [exact A2|]. eapply Forall_impl; [|exact G]. cbn. intros. qlra.
Qed.
Lemma pre_ends : forall l t v y, l <> [] -> Forall (fun q => fst q <= t) y -> Forall (fun q => time q <= t) l ->
  ordered l -> Forall (fun q => fst q <= t) (plateau_max_pre (rev l) t v y).
Proof.
  assert (G : forall l t v y e, Forall (fun q => time q <= e) l -> t <= e -> Forall (fun q : pt => fst q <= e) y ->
    Forall (fun q => fst q <= e) (plateau_max_pre l t v y)).
  { induction l as [|p l IH]; intros t v y e F T Y; cbn [plateau_max_pre]; [exact Y|]. inversion F; subst. apply IH; auto. }
  intros l t v y N Y F O. apply G; auto; [|apply Qcle_refl]. apply Forall_rev. exact F.
Qed.

Lemma plateau_inW : forall x a, inW x -> 0 < a -> beginTime x + a < endTime x ->
  exists z, plateauMax M x a = Ok z /\ inW z /\ beginTime z = beginTime x /\ endTime z = endTime x.
Proof.
  intros x a R0 A L. pose proof R0 as [N R]. destruct (crepQ_front _ _ R0) as (f & l & Es & Tf & Vf).
  unfold plateauMax. rewrite Es. cbn [deref bind]. rewrite <- Es.
  set (y0 := plateau_max_pre (rev (samples x)) (endTime x) (BOTTOM M) []).
  assert (WB : W (endTime x) (BOTTOM M)) by apply (W_bottom (endTime x)).
  destruct (pre_inW (samples x) (beginTime x) (endTime x) (BOTTOM M) [] R N WB) as (Y1 & Y2 & Y3); try constructor.
  assert (Y4 : Forall (fun q => fst q <= endTime x) y0).
  { apply pre_ends; auto; [eapply prepQ_le_end; eauto|eapply prepQ_ordered; eauto]. }
  destruct (pre_last (rev (samples x)) (endTime x) (BOTTOM M) []) as (r & w & EP).
  { intro C. apply N. rewrite <- (rev_involutive (samples x)), C. reflexivity. }
  fold y0 in Y1, Y2, Y3, EP.
  set (y := (time f, value f) :: y0).
  assert (Sy : psorted y) by (cbn [y psorted fst]; rewrite Tf; auto).
  assert (Wy : within_pts y) by (constructor; auto).
  assert (Ey : Forall (fun q => fst q <= endTime x) y) by (constructor; [cbn [fst]; qlra|exact Y4]).
  assert (By : Forall (fun q => beginTime x <= fst q) y) by (constructor; [cbn [fst]; qlra|exact Y3]).
  change (nadd (beginTime x) a) with (beginTime x + a).
  assert (Ha' : 0 <= a) by qlra.
  destruct (init_ok a (beginTime x) y Ha' Sy y [] []) as (C & Mq & i & E1 & E2 & E3 & E4 & E5 & E6 & E7 & p & i' & -> & E8); auto.
  { cbn. auto. }
  { intros q []. }
  { intros q []. }
  { exists (endTime x, w). split; [right; rewrite EP; apply in_or_app; right; left; reflexivity|cbn [fst]; qlra]. }
  rewrite E1. cbn [bind deref].
  assert (Len : (length y = length C + S (length i'))%nat) by (rewrite E2, app_length; reflexivity).
  destruct (loop_ok M a (endTime x) y) with (fuel := (2 * length y + 2)%nat) (C := C) (Mq := Mq) (i := p :: i')
    (t := beginTime x) (nc := neqb (fst p) (beginTime x + a)) (ec := false) (z := @nil smp) as (zs & K1 & K2 & K3 & K4 & K5); auto.
  { constructor; auto.
    - eapply Forall_impl; [|exact E3]. intros q Hq. cbn in Hq. qlra.
    - rewrite E2 in Sy. apply psorted_app in Sy. destruct Sy as (_ & (Sp & _) & _). constructor; auto.
      eapply Forall_impl; [|exact Sp]. intros q Hq. cbn in Hq. qlra.
    - rewrite Forall_forall in By |- *. intros q J. apply By. apply E5 in J. rewrite E2. apply in_or_app; auto.
    - intros B. qb. eauto.
    - discriminate.
    - qlra. }
  { unfold mu. cbn [length]. destruct (neqb _ _ || false); lia. }
  rewrite K1. cbn [app bind].
  assert (PW : prepQ true W (endTime x) zs (beginTime x)).
  { eapply prepQ_impl; [exact K3|]. intros u v _ _ [[->|(t & J & _)] _]; [apply (W_bottom u)|].
    unfold within_pts in Wy. rewrite Forall_forall in Wy. exact (Wy _ J). }
  destruct (exists_last K2) as (d & bk & EQ). unfold drop_last_at. rewrite EQ, rev_unit, rev_involutive.
  destruct (neqb (time bk) (endTime x)) eqn:B; qb; cbn [bind]; eexists; (split; [reflexivity|]); cbn [beginTime endTime]; (split; [|auto]).
  - rewrite EQ in PW. apply prepQ_app in PW. destruct PW as (t1 & P1 & P2).
    pose proof (prepQ_front _ _ _ _ _ _ P2) as Tb. assert (T1 : t1 = endTime x) by qlra. rewrite T1 in P1.
    split; [|exact P1]. cbn [samples]. intros ->. inversion P1. qlra.
  - rewrite EQ in PW. split; [|exact PW]. cbn [samples]. destruct d; discriminate.
Qed.

Lemma bounded_inW : forall x a, inW x -> 0 < a -> beginTime x + a < endTime x ->
  exists z, computeBoundedEventually M x a = Ok z /\ inW z /\ beginTime z = beginTime x /\ endTime z = endTime x.
Proof.
  intros x a H A L. unfold computeBoundedEventually.
  destruct (plateau_inW x a H A L) as (z1 & E1 & H1 & B1 & F1). rewrite E1. cbn [bind].
  change (nadd (beginTime x) a) with (beginTime x + a). change (nadd (endTime x) a) with (endTime x + a).
  destruct (resize_inW x (beginTime x + a) (endTime x + a) (BOTTOM M)) as (z2 & E2 & H2 & B2 & F2); [auto|qlra|qlra|apply (W_bottom 0)|].
  rewrite E2. cbn [bind]. change (nopp a) with (- a).
  assert (B2' : beginTime (shift z2 (- a)) = beginTime x) by (unfold shift; cbn [beginTime]; rewrite B2; change (beginTime x + a + - a = beginTime x); ring).
  assert (F2' : endTime (shift z2 (- a)) = endTime x) by (unfold shift; cbn [endTime]; rewrite F2; change (endTime x + a + - a = endTime x); ring).
  destruct (computeOr_inW (shift z2 (- a)) z1 (beginTime x) (endTime x)) as (z3 & E3 & R3); auto using inW_shift; [qlra|].
  cbv zeta. rewrite E3. cbn [bind]. destruct R3 as [B3 F3 H3 _ _].
  destruct (computeOr_inW x z3 (beginTime x) (endTime x)) as (z4 & E4 & R4); auto; [qlra|]. rewrite E4. cbn [bind].
  destruct (simplify_again _ _ _ _ R4) as (z5 & E5 & [B5 F5 H5 _ _]). exists z5. auto.
Qed.

Lemma timed_ev_inW : forall self x a b, inW x -> exists z, compute_timed_eventually M self x a b = Ok z /\ inW z /\
  beginTime z = back_by a (beginTime x) /\ endTime z = back_by a (endTime x).
Proof.
  intros self x a b H. pose proof H as [N _].
  unfold compute_timed_eventually. destruct (samples x) eqn:Es; [congruence|]. clear Es N.
  set (y := if nltb n0 a then shift x (nopp a) else x).
  assert (Hy : inW y) by (unfold y; destruct (nltb n0 a); [apply inW_shift|]; auto).
  assert (By : beginTime y = back_by a (beginTime x) /\ endTime y = back_by a (endTime x)).
  { unfold y, back_by. destruct (nltb n0 a) eqn:Ea; qb; destruct (Qclt_le_dec 0 a); try (split; reflexivity); exfalso; qlra. }
  destruct By as [<- <-]. cbv zeta. repeat qcase.
  - exists y. auto.
  - apply eventually_inW; auto.
  - apply bounded_inW; auto; qlra.
Qed.

Lemma timed_alw_inW : forall self x a b, inW x -> exists z, compute_timed_globally M self x a b = Ok z /\ inW z /\
  beginTime z = back_by a (beginTime x) /\ endTime z = back_by a (endTime x).
Proof.
  intros self x a b H. rewrite timed_globally_dual.
  destruct (timed_ev_inW (cnot self) (cnot x) a b (inW_cnot _ H)) as (z & E & H' & B). rewrite E.
  eexists. split; [reflexivity|]. split; [apply inW_cnot; auto|exact B].
Qed.
End M.
