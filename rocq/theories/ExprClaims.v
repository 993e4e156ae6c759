(** Signal expressions and comparisons of them. *)
From Coq Require Import List QArith Qcanon Bool String Lia.
From Verif Require Import Num Base Signal QcTac Spec Robust Repr Transducer StlSpec TreeProof ReadProof AtomProof ExprPass TreeRob Interval StlClaims SignalClaims Witness ExprProof.
Import ListNotations.
Local Open Scope Qc_scope.

Lemma sample_denotes : forall (l : list (sample Qc)) p, increasing l -> In p l -> denotes l (time p) (value p).
Proof.
  intros l p I J. apply in_split in J. destruct J as (l1 & l2 & ->). exists l1, p, l2. split; [reflexivity|]. split; [qlra|]. split.
  - induction l1; cbn [app increasing] in I; [apply I|apply IHl1; apply I].
  - unfold line. ring.
Qed.

Lemma sampled_at : forall E F s e l a, sampled E F s e l -> In a (map time l) -> denotes l a (F a).
Proof.
  intros E F s e l a S J. apply in_map_iff in J. destruct J as (p & <- & J). pose proof (sa_val _ _ _ _ _ S) as V. rewrite Forall_forall in V.
  rewrite <- (V p J). apply sample_denotes; [apply S|exact J].
Qed.

Lemma expression_samples : forall w E t f s e, e_ip E = LINEAR -> trace w (e_data E) -> expression w f -> stands_for t f ->
  0 <= e -> s <= e -> s <= last_time (e_data E) ->
  exists r t', compute_rob E (prepare E t s e) = Ok (r, t') /\ beginTime (tz t') = s /\
    forall a, a = s \/ (In a (map row_time (e_data E)) /\ s <= a /\ a <= e) ->
      exists v, at_time (tz t') a v /\ expr (eff E) (e_data E) f a v.
Proof.
  intros w E t f s e LIN TR X SF H0 H1 H2. destruct (expr_pass1 E w LIN TR f s e X H0 H1 H2) as (r & t1 & C & XS).
  pose proof (compute_rob_sim E _ _ (prepare_sim_skel E _ _ s e SF)) as S1. unfold prep in C. rewrite C in S1.
  destruct (compute_rob E (prepare E t s e)) as [[x1 u1]| | | |]; cbn [same] in S1; try contradiction. destruct S1 as [-> S1].
  exists r, u1. split; [reflexivity|]. rewrite (sim_tz E _ _ S1). split; [apply XS|]. intros a A.
  assert (AE : s <= a /\ a <= qmin e (last_time (e_data E))).
  { destruct A as [->|(A1 & A2 & A3)]; [qm; split; qlra|]. split; [exact A2|].
    assert (a <= last_time (e_data E)); [|qm; auto].
    assert (R : incr (map row_time (e_data E))).
    { destruct TR as (_ & R & _). clear -R. unfold column in R. induction (e_data E) as [|d l IH]; cbn [map incr rising] in *; [auto|].
      destruct R as [R1 R2]. split; [|apply IH; exact R2]. rewrite Forall_map in *. exact R1. }
    destruct (map row_time (e_data E)) as [|b l] eqn:EQ; [destruct A1|]. destruct (incr_bounds E b l R) as [_ B]. rewrite Forall_forall in B.
    unfold last_time. rewrite EQ. apply B. exact A1. }
  assert (IN : In a (map time (samples (tz t1)))).
  { apply (xs_times _ _ _ _ _ XS). destruct A as [A|(A1 & A2 & A3)]; [auto|right; tauto]. }
  exists (xval E f a). split; [|apply (expr_xval E w TR); auto].
  split; [rewrite (xs_begin _ _ _ _ _ XS); tauto|]. split; [|eapply sampled_at; [apply xs_sampled; exact XS|exact IN]].
  destruct (xs_end _ _ _ _ _ XS) as [-> | ->]; [tauto|].
  pose proof (xs_inc _ _ _ _ _ XS) as I. apply increasing_incr in I. destruct (map time (samples (tz t1))) as [|b l]; [destruct IN|].
  destruct (incr_bounds E b l I) as [_ B]. rewrite Forall_forall in B. apply B. exact IN.
Qed.

(** The signed difference of two expressions. *)
Definition difference (cst : option string -> Qc -> Qc) (data : list (list Qc)) (l : fml Qc) (op : comparator) (r : fml Qc) (t v : Qc) : Prop :=
  exists a b, expr cst data l t a /\ expr cst data r t b /\ v = match op with GREATERTHAN => a - b | LESSTHAN => b - a end.

Lemma xdiff_difference : forall w E l op r t, trace w (e_data E) -> expression w l -> expression w r -> difference (eff E) (e_data E) l op r t (xdiff E l op r t).
Proof.
  intros w E l op r t TR Xl Xr. exists (xval E l t), (xval E r t). split; [apply (expr_xval E w TR); auto|]. split; [apply (expr_xval E w TR); auto|].
  unfold xdiff. destruct op; reflexivity.
Qed.

Lemma comparison_numbers : forall w E t l op r s e, usual w E -> expression w l -> expression w r ->
  stands_for t (FAtom l op r) -> 0 <= s -> s <= e -> s <= last_time (e_data E) ->
  exists v, numbers (evaluate E t s e) = Ok (v, v, v) /\ difference (eff E) (e_data E) l op r s v.
Proof.
  intros w E t l op r s e (LIN & SPC & TR) Xl Xr SF H0 H1 H2.
  destruct (cmp_numbers E w LIN TR SPC t l op r s e SF Xl Xr) as (t' & C & _); auto; [qlra|].
  exists (xdiff E l op r s). rewrite C. split; [reflexivity|]. eapply xdiff_difference; eauto.
Qed.

Lemma comparison_signal : forall w E t l op r s e n t', usual w E -> expression w l -> expression w r -> affine l -> affine r ->
  stands_for t (FAtom l op r) -> 0 <= s -> s <= e -> s <= last_time (e_data E) -> evaluate E t s e = Ok (n, t') ->
  forall c, In c (map row_time (e_data E)) -> c <= e -> forall u, s <= u -> u <= c ->
    exists v, at_time (tz t') u v /\ difference (eff E) (e_data E) l op r u v.
Proof.
  intros w E t l op r s e n t' (LIN & SPC & TR) Xl Xr Al Ar SF H0 H1 H2 EV c C1 C2 u U1 U2.
  destruct (cmp_numbers E w LIN TR SPC t l op r s e SF Xl Xr) as (t1 & C & S & B & EN); auto; [qlra|].
  rewrite C in EV. injection EV as _ <-.
  assert (CT : c <= last_time (e_data E)).
  { assert (R : incr (map row_time (e_data E))).
    { destruct TR as (_ & R & _). clear -R. unfold column in R. induction (e_data E) as [|d l IH]; cbn [map incr rising] in *; [auto|].
      destruct R as [R1 R2]. split; [|apply IH; exact R2]. rewrite Forall_map in *. exact R1. }
    destruct (map row_time (e_data E)) as [|b k] eqn:EQ; [destruct C1|]. destruct (incr_bounds E b k R) as [_ BB]. rewrite Forall_forall in BB.
    unfold last_time. rewrite EQ. apply BB. exact C1. }
  assert (SE : s <= qmin e (last_time (e_data E))) by (qm; auto).
  assert (IN : In c (map time (samples (tz t1)))) by (apply (sa_times _ _ _ _ _ S); right; split; [exact C1|qm; split; qlra]).
  assert (CL : c <= last (map time (samples (tz t1))) 0).
  { pose proof (sa_inc _ _ _ _ _ S) as I. apply increasing_incr in I. destruct (map time (samples (tz t1))) as [|b k]; [destruct IN|].
    destruct (incr_bounds E b k I) as [_ BB]. rewrite Forall_forall in BB. apply BB. exact IN. }
  exists (xdiff E l op r u). split; [|eapply xdiff_difference; eauto]. split; [rewrite B; exact U1|]. split.
  - destruct EN as [-> | ->]; [qm; qlra|qlra].
  - apply (sampled_denotes E _ s (qmin e (last_time (e_data E)))); auto; [|qlra].
    intros a b A1 A2 A3 A4. apply (xdiff_straight E w TR); auto.
Qed.

Definition half : Qc := Q2Qc (1 # 2).
Definition upto_half : interval Qc := mkI (mkB 0 None) (mkB half None).
Definition ramp : env Qc := env_of [[q 0; q 1]; [q 1; q (-3)]].
Definition xs : fml Qc := FSig "x" 1.
Definition xs0 : fml Qc := FPlus xs (FConst None 0).
Definition cross : env Qc := env_of [[q 0; q (-1)]; [q 2; q 1]].

Lemma range_missing : exists E, usual 1 E /\ expression 1 xs0 /\
  (forall t v, expr (eff E) (e_data E) xs0 t v <-> expr (eff E) (e_data E) xs t v) /\
  (exists r t', compute_rob E (prepare E (build xs) 0 half) = Ok (r, t') /\ endTime (tz t') = half) /\
  (exists r t', compute_rob E (prepare E (build xs0) 0 half) = Ok (r, t') /\ endTime (tz t') = 0) /\
  numbers (evaluate E (build (FAlw upto_half (FAtom xs GREATERTHAN (FConst None 0)))) 0 0) = Ok (q (-1), q (-1), q (-1)) /\
  numbers (evaluate E (build (FAlw upto_half (FAtom xs0 GREATERTHAN (FConst None 0)))) 0 0) = Ok (q 1, q (-10000), q 1).
Proof.
  exists ramp. split; [|split; [cbn; repeat split; lia|split; [|split; [|split; [|split]]]]].
  - split; [reflexivity|]. split; [reflexivity|]. apply trace_check. vm_compute. reflexivity.
  - intros t v. cbn [xs0 xs expr]. split.
    + intros (a & b & A & B & ->). cbn [operand eff get_param] in B. subst b. replace (a + 0) with a by ring. exact A.
    + intros A. exists v, 0. split; [exact A|]. split; [reflexivity|ring].
  - do 2 eexists. split; [vm_compute; reflexivity|apply Qc_is_canon; vm_compute; reflexivity].
  - do 2 eexists. split; [vm_compute; reflexivity|apply Qc_is_canon; vm_compute; reflexivity].
  - vm_compute. reflexivity.
  - vm_compute. reflexivity.
Qed.

(** Between samples: the absolute value of a signal crossing zero. *)
Lemma between_missing : exists E, usual 1 E /\ expression 1 (FAbs xs) /\
  (exists r t', compute_rob E (prepare E (build (FAbs xs)) 0 (q 2)) = Ok (r, t') /\ at_time (tz t') (q 1) (q 1)) /\
  expr (eff E) (e_data E) (FAbs xs) (q 1) 0 /\
  numbers (evaluate E (build (FAlw (iv 0 2) (FAtom (FAbs xs) GREATERTHAN (FConst None 0)))) 0 0) = Ok (q 1, q 1, q 1).
Proof.
  exists cross. split; [|split; [cbn; repeat split; lia|split; [|split]]].
  - split; [reflexivity|]. split; [reflexivity|]. apply trace_check. vm_compute. reflexivity.
  - do 2 eexists. split; [vm_compute; reflexivity|]. split; [vm_compute; discriminate|]. split; [vm_compute; discriminate|]. den.
  - exists 0. split; [|apply Qc_is_canon; vm_compute; reflexivity]. cbn [expr xs operand].
    replace 0 with (q (-1) + (q 1 - q (-1)) / (q 2 - q 0) * (q 1 - q 0)) at 1 by (apply Qc_is_canon; vm_compute; reflexivity).
    apply lin_seg with (l1 := []) (l2 := []); [reflexivity|vm_compute; discriminate|vm_compute; discriminate].
  - vm_compute. reflexivity.
Qed.

(** The same two inside a formula. *)
Lemma column1 : forall d u v, rising (column d 0) -> expr (eff (env_of d)) d xs u v -> v = interp (column d 1) u.
Proof.
  intros d u v R H. apply linear_interp; [|exact H]. eapply rising_times; [|exact R]. rewrite !times_column. reflexivity.
Qed.
Lemma range_rob : exists E f, usual 1 E /\ afrag (bound_value E) 1 f /\ covers (bound_value E) (last_time (e_data E)) f 0 /\
  within (eff E) (e_data E) (e_M E) f /\
  exists r lo up, numbers (evaluate E (build f) 0 0) = Ok (r, lo, up) /\ ~ rob (eff E) (bound_value E) (e_data E) f 0 r.
Proof.
  exists ramp, (FAlw upto_half (FAtom xs0 GREATERTHAN (FConst None 0))).
  assert (U : usual 1 ramp) by (split; [reflexivity|]; split; [reflexivity|]; apply trace_check; vm_compute; reflexivity).
  pose proof U as (_ & _ & _ & R & _).
  split; [exact U|]. split; [cbn [afrag expression affine xs0 xs]; repeat match goal with |- _ /\ _ => split end; first [exact I | qdec | repeat constructor]|].
  split; [qdec|]. split.
  - intros t v. cbn [rob expr xs0]. intros (a & b & (x & y & X & -> & ->) & -> & ->).
    assert (B : q (-9) <= x /\ x <= q 9) by (revert X; apply column_within; [exact R|repeat constructor; qdec]).
    change (eff ramp None 0) with 0. destruct B. assert (- q 10000 <= q (-9)) by qdec. assert (q 9 <= q 10000) by qdec.
    change (e_M ramp) with (q 10000). split; qlra.
  - exists (q 1), (q (-10000)), (q 1). split; [vm_compute; reflexivity|]. cbn [rob]. intros (g & G & L & _).
    specialize (G half ltac:(qdec) ltac:(qdec)). specialize (L half ltac:(qdec) ltac:(qdec)).
    destruct G as (a & b & (x & y & X & -> & ->) & -> & G). apply column1 in X; [|exact R].
    change (eff ramp None 0) with 0 in G. rewrite G, X in L. vm_compute in L. apply L. reflexivity.
Qed.

Lemma between_rob : exists E f, usual 1 E /\ no_until (bound_value E) 1 f /\ covers (bound_value E) (last_time (e_data E)) f 0 /\
  within (eff E) (e_data E) (e_M E) f /\ regular (eff E) (bound_value E) (e_data E) f 0 0 /\
  exists r lo up, numbers (evaluate E (build f) 0 0) = Ok (r, lo, up) /\ ~ rob (eff E) (bound_value E) (e_data E) f 0 r.
Proof.
  exists cross, (FAlw (iv 0 2) (FAtom (FAbs xs) GREATERTHAN (FConst None 0))).
  assert (U : usual 1 cross) by (split; [reflexivity|]; split; [reflexivity|]; apply trace_check; vm_compute; reflexivity).
  pose proof U as (_ & _ & _ & R & _).
  split; [exact U|]. split; [cbn [no_until expression xs]; repeat match goal with |- _ /\ _ => split end; first [exact I | qdec | repeat constructor]|].
  split; [qdec|]. split; [|split].
  - intros t v. cbn [rob expr]. intros (a & b & (x & X & ->) & -> & ->).
    assert (B : q (-9) <= x /\ x <= q 9) by (revert X; apply column_within; [exact R|repeat constructor; qdec]).
    change (eff cross None 0) with 0. destruct B. assert (- q 10000 <= q (-9)) by qdec. assert (q 9 <= q 10000) by qdec.
    assert (- q (-9) = q 9) by (apply Qc_is_canon; reflexivity).
    change (e_M cross) with (q 10000). qm; split; qlra.
  - cbn [regular]. split; [intros _ C; discriminate C|]. right. right. qdec.
  - exists (q 1), (q 1), (q 1). split; [vm_compute; reflexivity|]. cbn [rob]. intros (g & G & L & _).
    specialize (G (q 1) ltac:(qdec) ltac:(qdec)). specialize (L (q 1) ltac:(qdec) ltac:(qdec)).
    destruct G as (a & b & (x & X & ->) & -> & G). apply column1 in X; [|exact R].
    change (eff cross None 0) with 0 in G. rewrite G, X in L. vm_compute in L. apply L. reflexivity.
Qed.
