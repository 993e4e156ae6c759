(** Correctness of the backward sweep of "eventually". *)
From Coq Require Import List QArith Qcanon Bool Lia.
From Verif Require Import Num Base Signal QcTac Spec Robust Repr AndProof NegProof SimplifyProof Lip BoolOps Closed.
Import ListNotations.
Local Open Scope Qc_scope.

Lemma line_limit : forall (p : smp) u t w, u < t ->
  (forall u', u <= u' -> u' < t -> line p u' <= w) -> line p t <= w.
Proof.
  intros p u t w Hut H.
  destruct (lip_line p u t) as (K & K0 & L).
  apply (limit_leq (line p) (fun _ => w) K u t); auto.
  intros u1 u2 U1 U2 U3. split; qnra.
Qed.

Lemma line_le_ends : forall (p : smp) s u t w, s <= u -> u <= t -> line p s <= w -> line p t <= w -> line p u <= w.
Proof.
  intros p s u t w H1 H2 H3 H4.
  pose proof (line_between p (mkS s w 0) s u t H1 H2) as K. unfold line in *. cbn [time value deriv] in K.
  assert (K' : value p + deriv p * (u - time p) <= w + 0 * (u - s)) by (apply K; qlra). qlra.
Qed.

Lemma line0 : forall t v u, line (mkS t v 0) u = v.
Proof. intros. unfold line. cbn [time value deriv]. ring. Qed.

Lemma is_sup_unique : forall f lo hi v w, is_sup f lo hi v -> is_sup f lo hi w -> v = w.
Proof.
  intros f lo hi v w [A1 A2] [B1 B2]. apply Qcle_antisym; auto.
Qed.

Section Ev.
Variable M : Qc.
Variables (f : Qc -> Qc) (cl : bool) (s e : Qc).
Hypothesis FB : forall u, s <= u -> u <= e -> - M <= f u.

Let S (u v : Qc) : Prop := is_sup f u e v.

(** [p] carries [f] from its own time up to [t]. *)
Record piece (p : smp) (t : Qc) : Prop := {
  pc_le : time p <= t;
  pc_e : t <= e;
  pc_line : forall u, time p <= u -> rlt cl u t -> f u = line p u;
  pc_deg : time p = t -> f t = line p t
}.

(** The descending list of pieces read by the sweep; [st]: something was read. *)
Inductive evp : bool -> list smp -> Qc -> Prop :=
| evp_last : forall st p i t, piece p t -> (st = false -> t = e /\ f e = line p e) ->
    time p = s -> evp st (p :: i) t
| evp_step : forall st p i t, piece p t -> (st = false -> t = e /\ f e = line p e) ->
    s < time p -> evp true i (time p) -> evp st (p :: i) t.

Definition pend (c : bool) (t m : Qc) (z : list smp) : list smp := if c then mkS t m 0 :: z else z.

Definition Inv (st : bool) (z : list smp) (c : bool) (m t : Qc) : Prop :=
  prepQ cl S e (pend c t m z) t /\
  if st then S t m /\ eval (pend c t m z) e = Some (f e)
  else m = - M /\ z = [] /\ c = false /\ t = e.

Lemma sup_piece : forall st p z c m t u, s <= time p -> Inv st z c m t -> piece p t ->
  (st = false -> t = e /\ f e = line p e) -> time p <= u -> rlt cl u t \/ u = time p ->
  S u (qmax (line p u) (qmax (line p t) m)).
Proof.
  intros st p z c m t u Hs [I1 I2] [A1 A2 A3 A4] St U1 U2.
  assert (Ut : u <= t) by (destruct U2 as [U2|U2]; [apply rlt_le in U2|]; qlra).
  set (v := qmax (line p u) (qmax (line p t) m)).
  assert (V : line p u <= v /\ line p t <= v /\ m <= v).
  { unfold v. destruct (qmax_cases (line p t) m) as [[-> ?]|[-> ?]].
    - destruct (qmax_cases (line p u) (line p t)) as [[-> ?]|[-> ?]]; repeat split; qlra.
    - destruct (qmax_cases (line p u) m) as [[-> ?]|[-> ?]]; repeat split; qlra. }
  destruct V as (V1 & V2 & V3). split.
  - intros u' U1' U2'. destruct (Qclt_le_dec u' t) as [C|C].
    + rewrite A3; [|qlra|apply rlt_lt; auto]. apply (line_le_ends p u u' t); auto; qlra.
    + destruct st.
      * destruct I2 as [[I2 _] _]. specialize (I2 u' C U2'). qlra.
      * destruct I2 as (_ & _ & _ & ->). destruct (St eq_refl) as [_ Fe].
        assert (u' = e) by qlra. subst u'. rewrite Fe. auto.
  - intros w W.
    assert (W1 : - M <= w).
    { pose proof (FB e ltac:(qlra) ltac:(qlra)). specialize (W e ltac:(qlra) ltac:(qlra)). qlra. }
    assert (W2 : m <= w).
    { destruct st; [|destruct I2 as (-> & _); auto]. destruct I2 as [[_ I2] _]. apply I2.
      intros u' U1' U2'. apply W; qlra. }
    assert (W3 : line p u <= w /\ line p t <= w).
    { destruct (Qcle_lt_or_eq _ _ Ut) as [L|L].
      - split.
        + rewrite <- A3; [|auto|apply rlt_lt; auto]. apply W; qlra.
        + apply (line_limit p u t); auto. intros u' U1' U2'. rewrite <- A3; [|qlra|apply rlt_lt; auto]. apply W; qlra.
      - subst u. assert (F : f t = line p t).
        { destruct U2 as [U2|U2]; auto. }
        rewrite <- F. split; apply W; qlra. }
    destruct W3 as [W3 W4]. unfold v.
    destruct (qmax_cases (line p t) m) as [[-> ?]|[-> ?]].
    + destruct (qmax_cases (line p u) (line p t)) as [[-> ?]|[-> ?]]; auto.
    + destruct (qmax_cases (line p u) m) as [[-> ?]|[-> ?]]; auto.
Qed.

Lemma extend : forall c t m z t0, t0 <= t -> prepQ cl S e (pend c t m z) t ->
  (forall u, t0 <= u -> rlt cl u t -> S u m) -> prepQ cl S e (mkS t0 m 0 :: z) t0.
Proof.
  intros c t m z t0 H P HS. destruct c; cbn [pend] in P.
  - inversion P as [|? ? ? t' A1 A2 A3 A4]; subst. apply prep_cons with (t' := t'); auto; [qlra|].
    intros u U1 U2. replace (line (mkS t0 m 0) u) with m by (unfold line; cbn; ring).
    destruct (Qclt_le_dec u t) as [C|C].
    + apply HS; auto. apply rlt_lt; auto.
    + replace m with (line (mkS t m 0) u) by (unfold line; cbn; ring). apply A3; auto.
  - apply prep_cons with (t' := t); auto. intros u U1 U2.
    replace (line (mkS t0 m 0) u) with m by (unfold line; cbn; ring). auto.
Qed.

Lemma eval_pend : forall c t m z t0 v, t0 <= e -> eval (pend c t m z) e = Some v -> c = true \/ z <> [] ->
  eval (mkS t0 m 0 :: z) e = Some v.
Proof.
  intros c t m z t0 v H E Hc. destruct c; cbn [pend] in E.
  - cbn [eval time] in *. destruct (eval z e) as [w|]; auto.
    replace (nleb t0 e) with true by (symmetry; apply nleb_true; auto).
    destruct (nleb t e) eqn:B; [|discriminate]. rewrite <- E. rewrite !line0. reflexivity.
  - apply eval_cons_some. auto.
Qed.

Lemma max3 : forall a b c v, (v = a \/ v = b \/ v = c) -> a <= v -> b <= v -> c <= v -> qmax a (qmax b c) = v.
Proof.
  intros a b c v H H1 H2 H3.
  destruct (qmax_cases b c) as [[-> ?]|[-> ?]].
  - destruct (qmax_cases a b) as [[-> ?]|[-> ?]]; destruct H as [->|[->| ->]]; qlra.
  - destruct (qmax_cases a c) as [[-> ?]|[-> ?]]; destruct H as [->|[->| ->]]; qlra.
Qed.

(** The body of the loop of computePartialEventually. *)
Definition ev_body (z : list smp) (p : smp) (t : Qc) (continued : bool) (zmax : Qc) : res (list smp * bool * Qc) :=
  let pt := valueAt p t in
  if nleb n0 (deriv p) then
    if nltb zmax pt
    then Ok ((if continued then mkS t zmax n0 :: z else z), true, pt)
    else Ok (z, true, zmax)
  else if nleb zmax pt then
    Ok (p :: (if continued then mkS t zmax n0 :: z else z), false, value p)
  else if nleb (value p) zmax then Ok (z, true, zmax)
  else
    q <- of_div (ndiv (nsub zmax (value p)) (deriv p)) ;;
    Ok (p :: mkS (nadd (time p) q) zmax n0 :: z, false, value p).

Lemma partial_ev_loop_eq : forall z i t c m, partial_ev_loop z i s t c m =
  match i with
  | nil => UB
  | p :: i' =>
      if nltb s (time p) then
        '(z', c', m') <- ev_body z p t c m ;; partial_ev_loop z' i' s (time p) c' m'
      else Ok (z, t, c, m, i)
  end.
Proof. intros z [|p i] t c m; reflexivity. Qed.

Lemma partial_ev_last_eq : forall z p t c m, time p = s ->
  partial_ev_last z p s t c m =
  ('(z', c', m') <- ev_body z p t c m ;; Ok (pend c' s m' z')).
Proof.
  intros z p t c m H. unfold partial_ev_last, ev_body, pend.
  assert (V : valueAt p s = value p).
  { rewrite <- H. rewrite valueAt_line. unfold line. ring. }
  assert (K : mkS s (value p) (deriv p) = p) by (rewrite <- H; destruct p; reflexivity).
  rewrite V, K. change n0 with 0 in *.
  destruct (nleb 0 (deriv p)).
  - destruct (nltb m (valueAt p t)); reflexivity.
  - destruct (nleb m (valueAt p t)); [reflexivity|]. destruct (nleb (value p) m); [reflexivity|].
    destruct (of_div (ndiv (nsub m (value p)) (deriv p))); try reflexivity. cbn [bind]. rewrite H. reflexivity.
Qed.

Lemma value_line : forall p : smp, line p (time p) = value p.
Proof. intros. unfold line. ring. Qed.

Lemma ev_step : forall st p z c m t, s <= time p -> Inv st z c m t -> piece p t ->
  (st = false -> t = e /\ f e = line p e) ->
  exists z2 c2 m2, ev_body z p t c m = Ok (z2, c2, m2) /\ Inv true z2 c2 m2 (time p).
Proof.
  intros st p z c m t Hs I Pp St.
  pose proof (fun u => sup_piece st p z c m t u Hs I Pp St) as SP.
  destruct I as [I1 I2]. pose proof Pp as [A1 A2 A3 A4].
  pose proof (value_line p) as VL.
  assert (NE : st = false -> c = false /\ z = [] /\ m = - M /\ t = e).
  { intros ->. destruct I2 as (-> & -> & -> & ->). auto. }
  assert (EV : st = true -> eval (pend c t m z) e = Some (f e)) by (intros ->; apply I2).
  assert (NEz : st = true -> c = true \/ z <> []).
  { intros K. apply EV in K. destruct c; auto. right. intros ->. discriminate. }
  assert (Te : time p <= e) by qlra.
  assert (FE : - M <= f e) by (apply FB; qlra).
  unfold ev_body. vline. change n0 with 0.
  destruct (nleb 0 (deriv p)) eqn:D; qb.
  - assert (Up : forall u, time p <= u -> u <= t -> line p u <= line p t).
    { intros u U1 U2. unfold line. qnra. }
    destruct (nltb m (line p t)) eqn:B; qb.
    + do 3 eexists. split; [reflexivity|]. unfold Inv. cbn [pend].
      fold (pend c t m z).
      assert (E2 : forall u, time p <= u -> rlt cl u t \/ u = time p -> S u (line p t)).
      { intros u U1 U2. assert (u <= t) by (destruct U2 as [U2|U2]; [apply rlt_le in U2|]; qlra).
        rewrite <- (max3 (line p u) (line p t) m (line p t)); auto; try qlra. }
      split; [|split].
      * apply prep_cons with (t' := t); auto. intros u U1 U2. rewrite line0. auto.
      * apply E2; auto; qlra.
      * destruct st.
        -- apply eval_cons_some. auto.
        -- destruct (NE eq_refl) as (-> & -> & -> & ->). destruct (St eq_refl) as [_ Fe]. cbn [pend].
           rewrite eval_cons_all; cbn [time]; auto. rewrite line0, Fe. reflexivity.
    + do 3 eexists. split; [reflexivity|]. unfold Inv. cbn [pend].
      assert (E2 : forall u, time p <= u -> rlt cl u t \/ u = time p -> S u m).
      { intros u U1 U2. assert (u <= t) by (destruct U2 as [U2|U2]; [apply rlt_le in U2|]; qlra).
        rewrite <- (max3 (line p u) (line p t) m m); auto; try qlra.
        specialize (Up u U1 ltac:(qlra)). qlra. }
      split; [|split].
      * apply (extend c t); auto.
      * apply E2; auto; qlra.
      * destruct st.
        -- apply (eval_pend c t); auto.
        -- destruct (NE eq_refl) as (-> & -> & -> & ->). destruct (St eq_refl) as [_ Fe].
           rewrite eval_cons_all; cbn [time]; auto. rewrite line0. f_equal. qlra.
  - assert (Up : forall u, time p <= u -> u <= t -> line p t <= line p u).
    { intros u U1 U2. unfold line. qnra. }
    assert (Up' : forall u u', u <= u' -> line p u' <= line p u).
    { intros u u' U1. unfold line. qnra. }
    destruct (nleb m (line p t)) eqn:B; qb.
    + do 3 eexists. split; [reflexivity|]. unfold Inv. cbn [pend]. fold (pend c t m z).
      assert (E2 : forall u, time p <= u -> rlt cl u t \/ u = time p -> S u (line p u)).
      { intros u U1 U2. assert (Ut : u <= t) by (destruct U2 as [U2|U2]; [apply rlt_le in U2|]; qlra).
        specialize (Up u U1 Ut).
        rewrite <- (max3 (line p u) (line p t) m (line p u)) at 1; auto; try qlra. }
      split; [|split].
      * apply prep_cons with (t' := t); auto.
      * rewrite <- VL. apply E2; auto; qlra.
      * destruct st.
        -- apply eval_cons_some. auto.
        -- destruct (NE eq_refl) as (-> & -> & -> & ->). destruct (St eq_refl) as [_ Fe]. cbn [pend].
           rewrite eval_cons_all; auto. rewrite Fe. reflexivity.
    + destruct (nleb (value p) m) eqn:B2; qb.
      * do 3 eexists. split; [reflexivity|]. unfold Inv. cbn [pend].
        assert (E2 : forall u, time p <= u -> rlt cl u t \/ u = time p -> S u m).
        { intros u U1 U2. assert (u <= t) by (destruct U2 as [U2|U2]; [apply rlt_le in U2|]; qlra).
          rewrite <- (max3 (line p u) (line p t) m m); auto; try qlra.
          specialize (Up' (time p) u U1). qlra. }
        split; [|split].
        -- apply (extend c t); auto.
        -- apply E2; auto; qlra.
        -- destruct st.
           ++ apply (eval_pend c t); auto.
           ++ destruct (NE eq_refl) as (-> & -> & -> & ->). destruct (St eq_refl) as [_ Fe].
              rewrite eval_cons_all; cbn [time]; auto. rewrite line0. f_equal. qlra.
      * rewrite ndiv_some by (intro; qlra). cbn [of_div bind].
        change (nsub m (value p)) with (m - value p).
        assert (Q0 : 0 < (m - value p) / deriv p /\ line p (time p + (m - value p) / deriv p) = m).
        { split; [qdiv (m - value p) (deriv p); qnra|]. unfold line. field. intro; qlra. }
        destruct Q0 as [Q0 Q1]. change (nadd (time p)) with (Qcplus (time p)).
        set (tc := time p + (m - value p) / deriv p) in *.
        assert (T1 : time p < tc) by (unfold tc; qlra).
        assert (T2 : tc < t).
        { apply Qcnot_le_lt. intro C. specialize (Up' t tc C). qlra. }
        do 3 eexists. split; [reflexivity|]. unfold Inv. cbn [pend].
        assert (E2 : forall u, tc <= u -> rlt cl u t -> S u m).
        { intros u U1 U2. rewrite <- (max3 (line p u) (line p t) m m); auto; try qlra.
          - apply SP; auto. qlra.
          - specialize (Up' tc u U1). qlra. }
        assert (E3 : forall u, time p <= u -> u <= tc -> S u (line p u)).
        { intros u U1 U2. specialize (Up' u tc U2).
          rewrite <- (max3 (line p u) (line p t) m (line p u)) at 1; auto; try qlra.
          apply SP; auto. left. apply rlt_lt. qlra. }
        split; [|split].
        -- apply prep_cons with (t' := tc); auto; [qlra| |].
           ++ intros u U1 U2. apply E3; auto. apply rlt_le in U2. auto.
           ++ apply (extend c t); auto. qlra.
        -- rewrite <- VL. apply E3; qlra.
        -- apply eval_cons_some. destruct st.
           ++ apply (eval_pend c t); auto. qlra.
           ++ exfalso. destruct (NE eq_refl) as (-> & -> & -> & ->). destruct (St eq_refl) as [_ Fe]. qlra.
Qed.

Lemma ev_loop : forall i st z c m t, evp st i t -> Inv st z c m t ->
  exists z2, ('(z', t', c', m', i') <- partial_ev_loop z i s t c m ;;
              p <- deref i' ;; z'' <- partial_ev_last z' p s t' c' m' ;; Ok (z'', i')) = Ok z2 /\
    prepQ cl S e (fst z2) s /\ eval (fst z2) e = Some (f e).
Proof.
  induction i as [|p i IH]; intros st z c m t E I; [inversion E|].
  rewrite partial_ev_loop_eq. inversion E as [? ? ? ? Pp St T|? ? ? ? Pp St T E']; subst.
  - assert (B : nltb s (time p) = false) by (apply nltb_false; qlra). rewrite B. cbn [bind deref].
    rewrite partial_ev_last_eq by auto.
    destruct (ev_step st p z c m t) as (z2 & c2 & m2 & E2 & I2 & I3 & I4); auto; [qlra|].
    rewrite E2. cbn [bind]. eexists. split; [reflexivity|]. cbn [fst]. rewrite <- T. auto.
  - assert (B : nltb s (time p) = true) by (apply nltb_true; qlra). rewrite B.
    destruct (ev_step st p z c m t) as (z2 & c2 & m2 & E2 & I2); auto; [qlra|].
    rewrite E2. cbn [bind]. apply (IH true); auto.
Qed.

Lemma ev_sweep : forall i, evp false i e ->
  exists z i', computePartialEventually M [] i s e = Ok (z, i') /\
    prepQ cl S e z s /\ eval z e = Some (f e).
Proof.
  intros i E. destruct (ev_loop i false [] false (- M) e E) as ([z i'] & K & P & V).
  - split; [constructor|]. auto.
  - exists z, i'. auto.
Qed.
End Ev.

(** ** From signals to pieces *)

Lemma prepQ_eval : forall cl Q e z t, prepQ cl Q e z t ->
  forall u, t <= u -> u < e -> exists v, eval z u = Some v /\ Q u v.
Proof.
  intros cl Q e z t P. induction P as [|p z t t' H1 H2 H3 P IH]; intros u U1 U2.
  - exfalso. qlra.
  - destruct (Qclt_le_dec u t') as [C|C].
    + rewrite eval_cons_all; [eexists; split; [reflexivity|]; apply H3; auto; qr| |qlra].
      eapply Forall_lt_le; [eapply prepQ_times; eauto|auto].
    + destruct (IH u C U2) as (v & V & HQ). exists v. split; auto. apply eval_cons_some. auto.
Qed.

Lemma crepQ_eval : forall Q x, crepQ Q x ->
  forall u, beginTime x <= u -> u <= endTime x -> exists v, eval (samples x) u = Some v /\ Q u v.
Proof.
  intros Q x [N R] u U1 U2. destruct (Qcle_lt_or_eq _ _ U2) as [L| ->].
  - eapply prepQ_eval; eauto.
  - clear U1 U2. revert R N. generalize (endTime x), (samples x), (beginTime x). intros e z t P.
    induction P as [|p z t t' H1 H2 H3 P IH]; intros N; [congruence|].
    destruct z as [|q z].
    + inversion P; subst. rewrite eval_cons_all; auto. eexists. split; [reflexivity|]. apply H3; auto. cbn. qlra.
    + destruct IH as (v & V & HQ); [discriminate|]. exists v. split; auto. apply eval_cons_some. auto.
Qed.

Lemma evp_of_prep : forall f s e l t st, prep true f t l s -> l <> [] -> t <= e -> (st = false -> t = e) ->
  evp f true s e st (rev l) t.
Proof.
  intros f s e l. induction l as [|p l IH] using rev_ind; intros t st P N T St; [congruence|].
  rewrite rev_app_distr. cbn [rev app].
  apply prepQ_app in P. destruct P as (t' & P1 & P2).
  inversion P2 as [|? ? ? t2 A1 A2 A3 A4]; subst. assert (t2 = t) by (inversion A4; auto). subst t2. clear A4.
  assert (Pp : piece f true e p t).
  { constructor; auto. intros E. apply A3; [qlra|cbn; qlra]. }
  assert (F : st = false -> t = e /\ f e = line p e).
  { intros K. apply St in K. subst t. split; [reflexivity|]. apply A3; [auto|cbn; qlra]. }
  destruct l as [|q l].
  - inversion P1; subst. apply evp_last; auto.
  - pose proof (prepQ_le _ _ _ _ _ P1) as L. destruct (Qcle_lt_or_eq _ _ L) as [L'|L'].
    + apply evp_step; auto. apply IH; auto; [discriminate|qlra|discriminate].
    + apply evp_last; auto.
Qed.

Lemma evp_of_incr : forall f s e l1 l2 t st, l1 <> [] -> increasing (l1 ++ l2) ->
  (exists p l, l1 = p :: l /\ time p = s) -> Forall (fun q => time q <= e) (l1 ++ l2) ->
  (forall u, s <= u -> u <= e -> eval (l1 ++ l2) u = Some (f u)) ->
  match l2 with [] => t = e | q :: _ => t = time q /\ st = true end ->
  evp f false s e st (rev l1) t.
Proof.
  intros f s e l1. induction l1 as [|p l IH] using rev_ind; intros l2 t st N I (p0 & l0 & E0 & T0) F Ev H2; [congruence|].
  rewrite rev_app_distr. cbn [rev app]. rewrite <- app_assoc in *. cbn [app] in *.
  assert (OI : ordered (l ++ p :: l2)) by (apply increasing_ordered; auto).
  assert (HI : Forall (fun q => time p < time q) l2).
  { clear - I. induction l as [|a l IH]; cbn in I; [apply I|]. apply IH. apply I. }
  assert (HL : Forall (fun q => time q < time p) l).
  { clear - I. induction l as [|a l IH]; cbn in I; [constructor|]. destruct I as [I1 I2]. constructor; auto.
    rewrite Forall_app in I1. destruct I1 as [_ I1]. apply Forall_inv in I1. auto. }
  assert (Tp : time p <= e).
  { rewrite Forall_app in F. destruct F as [_ F]. apply Forall_inv in F. auto. }
  assert (Te : time p <= t /\ t <= e).
  { destruct l2 as [|q l2]; [subst t; split; qlra|]. destruct H2 as [-> _]. apply Forall_inv in HI. split; [qlra|].
    rewrite Forall_app in F. destruct F as [_ F]. inversion F as [|? ? _ F']. apply Forall_inv in F'. auto. }
  assert (S0 : s <= time p).
  { destruct l as [|a l]; cbn in E0; inversion E0; subst; [qlra|]. apply Forall_inv in HL. qlra. }
  assert (LN : forall u, time p <= u -> u <= e -> Forall (fun q => u < time q) l2 -> f u = line p u).
  { intros u U1 U2 Fu. assert (K : Some (f u) = Some (line p u)); [|congruence].
    rewrite <- Ev by qlra. rewrite eval_app, eval_cons_all; auto. }
  assert (LT : forall u, u < t -> Forall (fun q => u < time q) l2).
  { intros u U. destruct l2 as [|q l2]; [constructor|]. destruct H2 as [-> _].
    rewrite ordered_app in OI. destruct OI as (_ & (_ & OI & _) & _). constructor; auto. eapply Forall_lt_le; eauto. }
  assert (FE : l2 = [] -> f e = line p e).
  { intros ->. apply LN; auto. qlra. }
  assert (Pp : piece f false e p t).
  { constructor; try apply Te.
    - intros u U1 U2. cbn in U2. destruct Te. apply LN; auto. qlra.
    - intros E. destruct l2 as [|q l2]; [subst t; auto|]. destruct H2 as [-> _]. apply Forall_inv in HI. exfalso. qlra. }
  assert (Hst : st = false -> t = e /\ f e = line p e).
  { intros ->. destruct l2 as [|q l2]; [auto|]. destruct H2. discriminate. }
  destruct l as [|q l].
  - cbn in E0. inversion E0; subst. apply evp_last; auto.
  - apply evp_step; auto.
    + cbn in E0. inversion E0; subst. apply Forall_inv in HL. auto.
    + apply (IH (p :: l2)); auto; [discriminate|]. cbn in E0. inversion E0; subst. eauto.
Qed.

(** computeEventually on closed pieces. *)
Lemma computeEventually_q : forall M f x, crep f x ->
  (forall u, beginTime x <= u -> u <= endTime x -> - M <= f u) ->
  exists z, computeEventually M x = Ok z /\ beginTime z = beginTime x /\ endTime z = endTime x /\
    crepQ (fun u v => is_sup f u (endTime x) v) z.
Proof.
  intros M f x [N R] FB. unfold computeEventually, compute_eventually.
  destruct (ev_sweep M f true (beginTime x) (endTime x) FB (rev (samples x))) as (z & i' & E & P & V).
  - apply evp_of_prep; auto. qlra.
  - cbn [samples empty_signal]. rewrite E. cbn [bind]. eexists. split; [reflexivity|].
    cbn [beginTime endTime]. split; [auto|]. split; [auto|]. split; cbn [samples beginTime endTime]; auto.
    intros ->. discriminate.
Qed.

Lemma eventually_claim : forall M x f p l, samples x = p :: l -> time p = beginTime x ->
  beginTime x <= endTime x -> Forall (fun q => time q <= endTime x) (samples x) ->
  increasing (samples x) \/ (ordered (samples x) /\ continuous (samples x)) ->
  (forall t, beginTime x <= t -> t <= endTime x -> denotes (samples x) t (f t) /\ - M <= f t) ->
  exists z, compute_eventually M empty_signal x = Ok z /\ beginTime z = beginTime x /\ endTime z = endTime x /\
    ordered (samples z) /\
    forall t, beginTime x <= t -> t <= endTime x ->
      exists v, denotes (samples z) t v /\ is_sup f t (endTime x) v.
Proof.
  intros M x f p l E T D F H Hf. destruct H as [I|[O C]].
  - unfold compute_eventually.
    destruct (ev_sweep M f false (beginTime x) (endTime x)) with (i := rev (samples x)) as (z & i' & E1 & P & V).
    + intros u U1 U2. apply Hf; auto.
    + apply (evp_of_incr f _ _ (samples x) []); rewrite ?app_nil_r; auto.
      * rewrite E. discriminate.
      * eauto.
      * intros u U1 U2. apply eval_denotes. apply Hf; auto.
    + cbn [samples empty_signal]. rewrite E1. cbn [bind]. eexists. split; [reflexivity|].
      cbn [beginTime endTime samples]. split; [auto|]. split; [auto|]. split; [eapply prepQ_ordered; eauto|].
      intros t T1 T2. destruct (Qcle_lt_or_eq _ _ T2) as [L|L].
      * destruct (prepQ_eval _ _ _ _ _ P t) as (v & V1 & V2); auto. exists v. split; auto. apply eval_denotes. auto.
      * subst t. exists (f (endTime x)). split; [apply eval_denotes; auto|]. split.
        -- intros u U1 U2. replace u with (endTime x) by qlra. qlra.
        -- intros w W. apply W; qlra.
  - destruct (crep_of_cont x p l) as (g & G); auto.
    assert (FG : forall u, beginTime x <= u -> u <= endTime x -> g u = f u).
    { intros u U1 U2. pose proof (crep_eval _ _ G u U1 U2) as K. destruct (Hf u U1 U2) as [K' _].
      apply eval_denotes in K'. congruence. }
    destruct (computeEventually_q M g x G) as (z & E1 & B1 & B2 & R).
    { intros u U1 U2. rewrite FG; auto. apply Hf; auto. }
    unfold computeEventually in E1. exists z. split; [auto|]. split; [auto|]. split; [auto|].
    split; [destruct R as [_ R]; eapply prepQ_ordered; eauto|].
    intros t T1 T2. destruct (crepQ_eval _ _ R t) as (v & V1 & V2); try congruence.
    exists v. split; [apply eval_denotes; auto|].
    destruct V2 as [V2 V3]. split.
    + intros u U1 U2. rewrite <- FG; try qlra. auto.
    + intros w W. apply V3. intros u U1 U2. rewrite FG; try qlra. auto.
Qed.
