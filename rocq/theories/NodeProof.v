(** Signal-level facts used at each node of a formula. *)
From Coq Require Import List QArith Qcanon Bool String Lia.
From Verif Require Import Num Base Signal QcTac Spec Robust Repr NegProof SimplifyProof Lip Closed SigProof ResizeProof BoundedProof TimedProof.
Import ListNotations.
Local Open Scope Qc_scope.

Lemma sample_or_not : forall s (l : list (sample Qc)),
  (exists q, In q l /\ s <= time q) \/ Forall (fun q => time q < s) l.
Proof.
  intros s. induction l as [|p l IH]; [right; constructor|].
  destruct (Qclt_le_dec (time p) s) as [D|D].
  - destruct IH as [(q & I & H)|F]; [left; exists q; split; [right|]; auto|right; constructor; auto].
  - left. exists p. split; [left; reflexivity|auto].
Qed.

(** Without a sample from [s] on, the last piece is one line. *)
Lemma last_line : forall (Q : Qc -> Qc -> Prop) e l t s, prepQ true Q e l t -> l <> [] -> Forall (fun q => time q < s) l ->
  exists p, In p l /\ forall u, time p <= u -> u <= e -> Q u (line p u).
Proof.
  intros Q e l t s P. induction P as [|p z t t' H1 H2 H3 P IH]; intros N F; [congruence|].
  inversion F; subst. destruct z as [|q z].
  - exists p. split; [left; reflexivity|]. inversion P; subst. intros u U1 U2. apply H3; auto.
  - destruct IH as (p' & I & H); [discriminate|auto|]. exists p'. split; [right; auto|auto].
Qed.

Lemma late_flat : forall g x s t, crepQ (fun u v => g u = v) x -> t < s -> s <= endTime x -> beginTime x <= t ->
  (forall u, t <= u -> u <= s -> g u = g s) -> late g x s.
Proof.
  intros g x s t [N P] H1 H2 H3 C. destruct (sample_or_not s (samples x)) as [D|D]; [left; auto|right].
  destruct (last_line _ _ _ _ s P N D) as (p & I & L). rewrite Forall_forall in D. specialize (D p I).
  assert (Z : deriv p = 0).
  { set (m := qmax t (time p)). assert (M1 : t <= m /\ time p <= m /\ m < s).
    { unfold m. destruct (qmax_cases t (time p)) as [[-> ?]|[-> ?]]; split; try split; auto; qlra. }
    destruct M1 as (M1 & M2 & M3). assert (E : g m = g s) by (apply C; qlra).
    rewrite (L m) in E by qlra. rewrite (L s) in E by qlra. unfold line in E.
    assert (F : deriv p * (s - m) = 0). { replace (deriv p * (s - m)) with ((value p + deriv p * (s - time p)) - (value p + deriv p * (m - time p))) by ring. rewrite E. ring. }
    destruct (Qcmult_integral _ _ F) as [F1|F1]; auto. qlra. }
  intros u U1 U2. rewrite (L u) by qlra. rewrite (L s) by qlra. unfold line. rewrite Z. ring.
Qed.

Lemma late_of : forall g x s lo, crepQ (fun u v => g u = v) x -> beginTime x <= s -> s <= lo -> s <= endTime x ->
  (forall c, (forall u, lo <= u -> u <= endTime x -> g u = g lo + c * (u - lo)) -> c = 0) -> late g x s.
Proof.
  intros g x s lo [N P] H1 H2 H3 C. destruct (sample_or_not s (samples x)) as [D|D]; [left; auto|right].
  destruct (last_line _ _ _ _ s P N D) as (p & I & L). rewrite Forall_forall in D. specialize (D p I).
  assert (Z : deriv p = 0).
  { apply C. intros u U1 U2. rewrite (L u) by qlra. rewrite (L lo) by qlra. unfold line. ring. }
  intros u U1 U2. rewrite (L u) by qlra. rewrite (L s) by qlra. unfold line. rewrite Z. ring.
Qed.

Lemma resize_late : forall g x s t v, crepQ (fun u v => g u = v) x -> beginTime x <= s -> s <= t -> t <= endTime x ->
  late g x s \/ s = t ->
  exists z, resize x s t v = Ok z /\ beginTime z = s /\ endTime z = t /\ crepQ (fun u v => g u = v) z /\
    (forall q, In q (samples x) -> s <= time q -> time q <= t -> In q (samples z)).
Proof.
  intros g x s t v R H1 H2 H3 L.
  destruct (sample_or_not s (samples x)) as [D|D].
  - destruct (resize_q _ x s t v R H1 H2 H3 (or_introl D)) as (z & A1 & A2 & A3 & A4 & _ & A6).
    exists z. auto.
  - destruct L as [L|L].
    + destruct (resize_front_late g x s R H1 ltac:(qlra) L) as (l & E1 & E2 & E3).
      unfold resize. rewrite eps_lt by auto.
      assert (BT : nltb t s = false) by (apply nltb_false; auto). rewrite BT.
      rewrite E1. cbn [bind]. unfold resize_back.
      assert (BE : nltb (endTime x) t = false) by (apply nltb_false; auto). rewrite BE. cbn [bind].
      destruct (prepQ_cut _ (endTime x) l s t E2 E3 H2 H3) as [N1 P1].
      destruct (pop_back_while (fun p => nltb t (time p)) l) as [|p1 l1]; [congruence|].
      eexists. split; [reflexivity|]. cbn [beginTime endTime samples]. split; [auto|]. split; [auto|].
      split; [split; [discriminate|exact P1]|].
      intros q I T1 _. rewrite Forall_forall in D. specialize (D q I). qlra.
    + destruct (resize_q _ x s t v R H1 H2 H3 (or_intror L)) as (z & A1 & A2 & A3 & A4 & _ & A6).
      exists z. auto.
Qed.

Lemma crepQ_fun : forall (Q : Qc -> Qc -> Prop) x, crepQ Q x ->
  (forall u v w, beginTime x <= u -> u <= endTime x -> Q u v -> Q u w -> v = w) ->
  exists h, crepQ (fun u v => h u = v) x /\ forall u, beginTime x <= u -> u <= endTime x -> Q u (h u).
Proof.
  intros Q x [N P] F.
  set (h u := match eval (samples x) u with Some v => v | None => 0 end).
  assert (G : forall e l t, prepQ true Q e l t -> (forall u v w, t <= u -> u <= e -> Q u v -> Q u w -> v = w) -> l <> [] ->
    forall u, t <= u -> u <= e -> exists v, eval l u = Some v /\ Q u v).
  { clear. intros e l t P. induction P as [|p z t t' H1 H2 H3 P IH]; intros F N u U1 U2; [congruence|].
    destruct (Qclt_le_dec u t') as [D|D].
    - exists (line p u). split; [|apply H3; auto; cbn; qlra]. apply eval_cons_all; [|qlra].
      apply prepQ_times in P. eapply Forall_lt_le; eauto.
    - destruct z as [|q z].
      + inversion P; subst. assert (u = t') by (apply Qcle_antisym; auto). subst u.
        exists (line p t'). split; [|apply H3; auto; cbn; qlra]. apply eval_cons_all; [constructor|auto].
      + destruct (IH ltac:(intros; apply F with (u := u0); auto; qlra) ltac:(discriminate) u D U2) as (v & E & Qv).
        exists v. split; auto. apply eval_cons_some. exact E. }
  assert (H : forall u, beginTime x <= u -> u <= endTime x -> eval (samples x) u = Some (h u) /\ Q u (h u)).
  { intros u U1 U2. destruct (G _ _ _ P F N u U1 U2) as (v & E & Qv). unfold h. rewrite E. auto. }
  exists h. split; [|intros; apply H; auto].
  split; auto. eapply prepQ_impl; [exact P|]. cbn. intros u v U1 U2 Qv. eapply F; eauto. apply H; auto.
Qed.

(** ** Eventually and always together *)
Definition is_ext (ev : bool) := if ev then is_sup else is_inf.
Definition timed (ev : bool) (M : Qc) (self x : signal Qc) (a b : Qc) : res (signal Qc) :=
  if ev then compute_timed_eventually M self x a b else compute_timed_globally M self x a b.

Lemma is_ext_unique : forall ev f lo hi v w, is_ext ev f lo hi v -> is_ext ev f lo hi w -> v = w.
Proof.
  intros [|] f lo hi v w [A1 A2] [B1 B2]; apply Qcle_antisym; auto.
Qed.

Lemma is_ext_ext : forall ev f g lo hi v, (forall u, lo <= u -> u <= hi -> f u = g u) -> is_ext ev f lo hi v -> is_ext ev g lo hi v.
Proof.
  intros [|] f g lo hi v E [H1 H2]; (split;
  [intros u U1 U2; rewrite <- E by auto; auto|intros w W; apply H2; intros u U1 U2; rewrite E by auto; auto]).
Qed.

Lemma is_ext_within : forall ev f lo hi v m M, lo <= hi -> is_ext ev f lo hi v ->
  (forall u, lo <= u -> u <= hi -> m <= f u /\ f u <= M) -> m <= v /\ v <= M.
Proof.
  intros [|] f lo hi v m M H [H1 H2] B.
  - split; [|apply H2; intros; apply B; auto]. specialize (H1 lo ltac:(qlra) H). destruct (B lo ltac:(qlra) H). qlra.
  - split; [apply H2; intros; apply B; auto|]. specialize (H1 lo ltac:(qlra) H). destruct (B lo ltac:(qlra) H). qlra.
Qed.

Lemma timed_q : forall ev M self xf x a b, crepQ (fun u v => xf u = v) x -> 0 <= a -> a <= b ->
  (forall u, beginTime x <= u -> u <= endTime x -> - M <= xf u /\ xf u <= M) -> late_for xf x (b - a) ->
  exists z, timed ev M self x a b = Ok z /\
    beginTime z = beginTime x - a /\ endTime z = endTime x - a /\
    crepQ (fun u v => is_ext ev xf (u + a) (qmin (u + b) (endTime x)) v) z /\
    (b = a -> z = shift x (- a)) /\ (0 < b - a -> b - a < endTime x - beginTime x -> ends z).
Proof.
  intros [|] M self xf x a b R H1 H2 B L.
  - destruct (timed_ev_q M self xf x a b R H1 H2) as (z & A1 & A2 & A3 & A4 & A5 & A6); auto.
    { intros; apply B; auto. }
    exists z. split; [exact A1|]. split; [auto|]. split; [auto|]. split; [exact A4|]. split; [auto|]. apply A6.
  - destruct (timed_alw_q M self xf x a b R H1 H2) as (z & A1 & A2 & A3 & A4 & A5 & A6); auto.
    { intros; apply B; auto. }
    exists z. split; [exact A1|]. split; [auto|]. split; [auto|]. split; [exact A4|]. split; [auto|]. apply A6.
Qed.

Lemma ext_flat : forall ev g lo s hi v, lo <= s -> s <= hi -> (forall u, lo <= u -> u <= s -> g u = g s) ->
  is_ext ev g s hi v -> is_ext ev g lo hi v.
Proof.
  intros [|] g lo s hi v H1 H2 C [A1 A2]; (split;
  [intros u U1 U2; destruct (Qclt_le_dec u s) as [D|D]; [rewrite C by qlra; apply A1; qlra|auto]|
   intros w W; apply A2; intros u U1 U2; apply W; qlra]).
Qed.

(** The operator over a child known on [[.., ex]], read from [s] to [t]. *)
Lemma window_q : forall ev M self g x a b s t v, crepQ (fun u v => g u = v) x -> 0 <= a -> a <= b ->
  (forall u, beginTime x <= u -> u <= endTime x -> - M <= g u /\ g u <= M) -> late_for g x (b - a) ->
  beginTime x <= s + a -> s <= t -> t <= endTime x - a ->
  (forall u, beginTime x <= u -> u <= s + a -> g u = g (s + a)) -> In (s + a) (map time (samples x)) ->
  exists z0 z h, timed ev M self x a b = Ok z0 /\ endTime z0 = endTime x - a /\ resize z0 s t v = Ok z /\
    beginTime z = s /\ endTime z = t /\ crepQ (fun u v => h u = v) z /\
    (forall u, s <= u -> u <= t -> is_ext ev g (u + a) (qmin (u + b) (endTime x)) (h u)) /\
    (forall u, s <= u -> u <= t -> - M <= h u /\ h u <= M) /\
    (a = b -> forall q, In q (samples x) -> s + a <= time q -> time q <= t + a ->
       exists q', In q' (samples z) /\ time q' = time q - a).
Proof.
  intros ev M self g x a b s t v R Ha Hab B L H1 H2 H3 C I.
  destruct (timed_q ev M self g x a b R Ha Hab B L) as (z0 & A1 & A2 & A3 & A4 & A5 & A6).
  destruct (crepQ_fun _ z0 A4) as (h & Rh & Eh).
  { intros. eapply is_ext_unique; eauto. }
  rewrite A2, A3 in Eh.
  assert (LT : late h z0 s \/ s = t).
  { destruct (Qclt_le_dec s t) as [D|D]; [left|right; apply Qcle_antisym; auto].
    destruct (Qclt_le_dec (beginTime x) (s + a)) as [D2|D2].
    - destruct (Qclt_le_dec 0 (b - a)) as [D3|D3].
      + destruct (Qclt_le_dec (b - a) (endTime x - beginTime x)) as [D4|D4].
        * left. destruct (A6 D3 D4) as (q & Iq & Tq). exists q. split; auto. rewrite Tq, A3. qlra.
        * apply late_flat with (t := beginTime x - a); auto; rewrite ?A2, ?A3; try qlra.
          intros u U1 U2. pose proof (Eh u U1 ltac:(qlra)) as X1. pose proof (Eh s ltac:(qlra) ltac:(qlra)) as X2.
          assert (Q1 : qmin (u + b) (endTime x) = endTime x). { destruct (qmin_cases (u + b) (endTime x)) as [[-> ?]|[-> ?]]; qlra. }
          assert (Q2 : qmin (s + b) (endTime x) = endTime x). { destruct (qmin_cases (s + b) (endTime x)) as [[-> ?]|[-> ?]]; qlra. }
          rewrite Q1 in X1. rewrite Q2 in X2. eapply is_ext_unique; [exact X1|].
          apply ext_flat with (s := s + a); auto; try qlra. intros w W1 W2. apply C; qlra.
      + left. rewrite (A5 ltac:(qlra)). apply in_map_iff in I. destruct I as (q & Tq & Iq).
        exists (shift_sample (- a) q). split; [cbn [shift samples]; apply in_map; auto|]. cbn [shift_sample time].
        change (s <= time q + - a). rewrite Tq. qlra.
    - left. destruct (crepQ_front _ _ Rh) as (p & l & S1 & S2 & _). exists p. rewrite S1. split; [left; reflexivity|].
      rewrite S2, A2. qlra. }
  destruct (resize_late h z0 s t v Rh) as (z & Z1 & Z2 & Z3 & Z4 & Z5); auto; rewrite ?A2, ?A3; try qlra.
  exists z0, z, h. split; [exact A1|]. split; [exact A3|]. split; [exact Z1|]. split; [auto|]. split; [auto|]. split; [exact Z4|].
  assert (EX : forall u, s <= u -> u <= t -> is_ext ev g (u + a) (qmin (u + b) (endTime x)) (h u)).
  { intros u U1 U2. apply Eh; qlra. }
  split; [exact EX|]. split.
  - intros u U1 U2. eapply is_ext_within; [|apply EX; auto|].
    + destruct (qmin_cases (u + b) (endTime x)) as [[-> ?]|[-> ?]]; qlra.
    + intros w W1 W2. apply B; [qlra|]. destruct (qmin_cases (u + b) (endTime x)) as [[Q ?]|[Q ?]]; rewrite Q in W2; qlra.
  - intros AB q Iq T1 T2. exists (shift_sample (- a) q). split; [|cbn [shift_sample time]; change (time q + - a = time q - a); ring].
    apply Z5.
    + rewrite (A5 (eq_sym AB)). cbn [shift samples]. apply in_map. auto.
    + cbn [shift_sample time]. change (s <= time q + - a). qlra.
    + cbn [shift_sample time]. change (time q + - a <= t). qlra.
Qed.
