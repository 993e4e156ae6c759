(** Formulas with until at any depth, outside another until: the evaluation does not fail
    when the data covers each until. *)
From Coq Require Import List String QArith Qcanon Bool.
From Verif Require Import Num Base Signal QcTac Spec Robust Transducer StlSpec TreeProof ExprPass Front StlClaims UntilTree SafeSignal SignalClaims Witness UntilWitness Driver.
From Verif Require SafeTree BoundPass.
Import ListNotations.
Local Open Scope Qc_scope.

(** Until as in C51, at any place of the formula outside another until; the conditions of
    C51 are asked of the until at the times at which it is evaluated, and only of it.  The
    rest is as in [no_until].  [m] bounds the numbers below the untils. *)
Fixpoint supplied (cst : option string -> Qc -> Qc) (val : bound Qc -> Qc) (w : nat) (data : list (list Qc)) (m : Qc)
    (f : fml Qc) (s e : Qc) : Prop :=
  match f with
  | FAtom l _ r => expression w l /\ expression w r
  | FNot c => supplied cst val w data m c s e
  | FAnd l r | FOr l r | FImp l r => supplied cst val w data m l s e /\ supplied cst val w data m r s e
  | FEv i c | FAlw i c => 0 <= val (iend i) /\ supplied cst val w data m c (s + val (ibegin i)) (e + val (iend i))
  | FUntil _ _ _ => ufrag val w f /\ 0 <= s /\ s <= e /\ covers val (last_time data) f e /\ within cst data m f /\
      regular cst val data f s e /\ uncut val (last_time data) f s e
  | _ => False
  end.

Lemma jfront_headed : forall s v z, jfront s v z -> headed z.
Proof. intros s v z (_ & _ & f & l & E & T & _). do 2 eexists. eauto. Qed.

Section Until.
Variable E : env Qc.
Variable w : nat.
Variable m : Qc.
Hypothesis U : usual w E.
Hypothesis HM : 0 <= e_M E.
Hypothesis Lm : m < e_M E.

Notation val := (bound_value E).
Notation cst := (eff E).
Notation D := (e_data E).

Definition uini (s e : Qc) (t : tree Qc) : Prop :=
  exists l i r, supplied cst val w D m (FUntil l i r) s e /\ t = prep E (FUntil l i r) s e.
Definition uok (t : tree Qc) : Prop :=
  exists l i r s e, supplied cst val w D m (FUntil l i r) s e /\ uready E w (FUntil l i r) s e t.

Lemma uok_shape : forall l i r s e t, uready E w (FUntil l i r) s e t -> exists n l' r', t = TUntil n l' i r'.
Proof. intros l i r s e t R. destruct t; cbn [uready] in R; try contradiction. destruct R as (-> & _). eauto. Qed.

Lemma until_first : forall n l i r s e, uini s e (TUntil n l i r) ->
  exists v n' l' r', compute_rob E (TUntil n l i r) = Ok (v, TUntil n' l' i r') /\ headed (nz n') /\ uok (TUntil n' l' i r').
Proof.
  intros n l i r s e (f1 & j & f2 & S & Eq). destruct U as (LIN & SPC & TR). pose proof S as (S1 & S2 & S3 & S4 & S5 & S6 & S7).
  assert (j = i) by (unfold prep, prepare in Eq; cbn [build set_trace set_params reset set_horizon] in Eq; congruence). subst j. rewrite Eq.
  destruct (until_pass E w LIN SPC TR (FUntil f1 i f2) s e S1 S2 S3 S4) as (v & t' & A1 & A2 & _ & A4); auto.
  { eapply within_mono; [|exact S5]. qlra. }
  destruct (uok_shape _ _ _ _ _ _ A4) as (n' & l' & r' & ->). exists v, n', l', r'. split; [exact A1|].
  split; [eapply jfront_headed; exact A2|]. exists f1, i, f2, s, e. auto.
Qed.

Lemma until_next : forall (up : bool) n l i r, uok (TUntil n l i r) ->
  exists v n' l' r', compute_bound E up (TUntil n l i r) = Ok (v, TUntil n' l' i r') /\
    headed (SafeTree.side up (TUntil n' l' i r')) /\ uok (TUntil n' l' i r').
Proof.
  intros up n l i r (f1 & j & f2 & s & e & S & R). destruct U as (LIN & SPC & TR). pose proof S as (S1 & S2 & S3 & S4 & S5 & S6 & S7).
  assert (j = i) by (cbn [uready] in R; destruct R as (-> & _); reflexivity). subst j.
  destruct (until_bound E w LIN SPC TR (FUntil f1 i f2) s e (TUntil n l i r) up m S1 S2 S3 S4 Lm S5 HM S6 S7 R) as (v & t' & A1 & A2 & A3 & _).
  destruct (uok_shape _ _ _ _ _ _ A2) as (n' & l' & r' & ->). exists v, n', l', r'. split; [exact A1|].
  split; [eapply jfront_headed; exact A3|]. exists f1, i, f2, s, e. auto.
Qed.

Lemma until_trim : forall n l i r z, uok (TUntil n l i r) -> uok (TUntil (with_z n z) l i r).
Proof. intros n l i r z (f1 & j & f2 & s & e & S & R). exists f1, j, f2, s, e. split; [exact S|exact R]. Qed.

Lemma ini_supplied : forall f s e, 0 <= e -> supplied cst val w D m f s e -> SafeTree.ini E w uini s e (prepare E (build f) s e).
Proof.
  induction f; intros s e H X; cbn [supplied] in X; try contradiction.
  8: { exists f1, i, f2. split; [exact X|reflexivity]. }
  all: unfold prepare; cbn [build set_trace set_params reset set_horizon SafeTree.ini]; (split; [reflexivity|]).
  - split; [exact H|]. destruct X. split; apply SafeTree.xini_build; auto.
  - apply IHf; auto.
  - destruct X. split; [apply IHf1|apply IHf2]; auto.
  - destruct X. split; [apply IHf1|apply IHf2]; auto.
  - destruct X. split; [apply IHf1|apply IHf2]; auto.
  - destruct X as [X1 X2]. split; [exact X1|]. apply IHf; auto. unfold nadd. cbn [NumQc]. qlra.
  - destruct X as [X1 X2]. split; [exact X1|]. apply IHf; auto. unfold nadd. cbn [NumQc]. qlra.
Qed.

Theorem until_safe : forall f t s e, stands_for t f -> supplied cst val w D m f s e -> 0 <= e ->
  exists r lo up, numbers (evaluate E t s e) = Ok (r, lo, up).
Proof.
  intros f t s e Sk X H. destruct U as (LIN & SPC & TR). rewrite (evaluate_skel E t (build f) s e Sk).
  apply (SafeTree.evaluation_done E w TR SPC uini uok until_first until_next until_trim). apply ini_supplied; auto.
Qed.
End Until.

(** The environment of an evaluation in a driver. *)
Definition driver_env (S : statics Qc) (d : driver Qc) : env Qc := mkEnv (d_sem d) (d_ip d) (s_M S) (d_data d) (d_params d).

Lemma until_online_safe : forall w m S d phi t f t0, find phi (d_formulas d) = Some t -> stands_for t f ->
  usual w (driver_env S d) -> 0 <= s_M S -> m < s_M S ->
  supplied (eff (driver_env S d)) (bound_value (driver_env S d)) w (d_data d) m f t0 t0 -> 0 <= t0 ->
  exists S' d' r lo up, dstep S d (DOnlineRob phi t0) = Ok (S', d', OVec [r; lo; up]) /\
    d_data d' = d_data d /\ d_params d' = d_params d.
Proof.
  intros w m S d phi t f t0 F Sk U HM Lm X H. cbn [dstep]. unfold d_online. rewrite F. pose proof U as (_ & _ & D & _). cbn [driver_env e_data] in D.
  destruct (d_data d) eqn:ED; [congruence|]. rewrite <- ED in *. unfold eval_tree.
  destruct (until_safe (driver_env S d) w m U HM Lm f t t0 t0 Sk X H) as (r & lo & up & N).
  unfold numbers, driver_env in N. cbn [s_sem s_ip s_M] in *.
  destruct (evaluate (mkEnv (d_sem d) (d_ip d) (s_M S) (d_data d) (d_params d)) t t0 t0) as [[[[r' lo'] up'] t']| | | |]; try discriminate.
  cbn [bind]. injection N as -> -> ->. do 5 eexists. split; [reflexivity|]. split; reflexivity.
Qed.

(** alw_[0,1] (2 y > x => (x + y > 1 until_[0,1] 2 y > x)) and alw_[0,50] x + y > 1 *)
Definition promise : fml Qc :=
  FAnd (FAlw (iv 0 1) (FImp y_over_x (FUntil x_plus_y (iv 0 1) y_over_x))) (FAlw (iv 0 50) x_plus_y).
Lemma promise_supplied : supplied (eff (env_of pact_data)) (bound_value (env_of pact_data)) 2 pact_data (q 100) promise 0 0.
Proof.
  destruct (mix_parts pact_data (or_intror eq_refl)) as [W1 W2].
  assert (R2 : In (0 + bound_value (env_of pact_data) (iend (iv 0 1)) + bound_value (env_of pact_data) (iend (iv 0 1))) (map row_time pact_data)) by (do 2 right; left; apply Qc_is_canon; vm_compute; reflexivity).
  cbn [supplied promise ufrag covers regular uncut afrag x_plus_y y_over_x expression affine fixed].
  split; [|split; [qdec|]; repeat match goal with |- _ /\ _ => split end; first [exact I|repeat constructor]].
  split; [qdec|]. split; [repeat match goal with |- _ /\ _ => split end; first [exact I|repeat constructor]|].
  split; [repeat match goal with |- _ /\ _ => split end; first [exact I | qdec | left; split; exact I | repeat constructor]|].
  split; [qdec|]. split; [qdec|]. split; [split; qdec|]. split; [split; [exact W1|exact W2]|].
  split; [split; right; left; exact R2|]. split; exact I.
Qed.
Lemma promise_numbers : numbers (evaluate (env_of pact_data) (build promise) 0 0) = Ok (q 0, q (-10000), q 0).
Proof. vm_compute. reflexivity. Qed.
