(** The claims about signals, in the vocabulary of Spec.v. *)
From Coq Require Import List QArith Qcanon Bool Lia.
From Coq Require Import PrimFloat.
From Verif Require Import Num NumFloat Base Signal QcTac Spec Robust Repr AndProof NegProof SimplifyProof Lip BoolOps Closed SigProof ResizeProof NegTimed.
Import ListNotations.
Local Open Scope Qc_scope.

Definition ov (o : option Qc) : Qc := match o with Some v => v | None => 0 end.
Definition fn (x : signal Qc) (u : Qc) : Qc := ov (eval (samples x) u).

Lemma fn_eval : forall x u, wf x -> beginTime x <= u -> eval (samples x) u = Some (fn x u).
Proof.
  intros x u (_ & _ & p & l & E & T) U. unfold fn. rewrite E. destruct (eval_some p l u) as (v & ->); [qlra|]. reflexivity.
Qed.

Lemma wf_denotes : forall x t, wf x -> beginTime x <= t -> exists v, denotes (samples x) t v.
Proof. intros x t W H. exists (fn x t). apply eval_denotes. apply fn_eval; auto. Qed.

Lemma left_at_cont : forall l e v p0 l0, ordered l -> continuous l -> l = p0 :: l0 -> time p0 <= e ->
  left_at l e v -> eval l e = Some v.
Proof.
  intros l e v p0 l0 O C E0 T0 (l1 & p & l2 & E & H & F & ->).
  assert (Tp : time p <= e).
  { destruct H as [H| ->]; [qlra|]. cbn in E. rewrite E in E0. inversion E0; subst. auto. }
  rewrite E in *. rewrite eval_app. apply cont_app_r in C. apply ordered_app in O. destruct O as (_ & O & _).
  destruct l2 as [|q l2].
  - rewrite eval_cons_all; auto.
  - inversion F as [|? ? F1 F2]; subst. destruct C as [C1 C2]. destruct O as [O1 O2].
    destruct (Qcle_lt_or_eq _ _ F1) as [L|L].
    + rewrite eval_cons_all; auto. constructor; auto. destruct O2 as [O2 _]. eapply Forall_lt_le; [exact O2|auto].
    + subst e. rewrite (eval_cons_some p _ _ _ (cont_eval_front l2 q O2 C2)). f_equal. auto.
Qed.

Section Pair.
Variables (x y : signal Qc).
Let b := qmax (beginTime x) (beginTime y).
Let e := qmin (endTime x) (endTime y).
Hypothesis Wx : wf x.
Hypothesis Wy : wf y.
Hypothesis Hbe : b <= e.

Lemma be_facts : beginTime x <= b /\ beginTime y <= b.
Proof. unfold b. destruct (qmax_cases (beginTime x) (beginTime y)) as [[-> ?]|[-> ?]]; split; qlra. Qed.

Lemma pair_hyps : exists xe ye, left_at (samples x) e xe /\ left_at (samples y) e ye /\
  (exists p l, samples x = p :: l /\ time p <= b) /\ (exists p l, samples y = p :: l /\ time p <= b).
Proof.
  destruct be_facts as [B1 B2].
  destruct Wx as (_ & _ & p & l & E & T). destruct Wy as (_ & _ & q & l' & E' & T').
  destruct (left_at_exists (samples x) e) as (xe & Lx); [rewrite E; discriminate|].
  destruct (left_at_exists (samples y) e) as (ye & Ly); [rewrite E'; discriminate|].
  exists xe, ye. split; [auto|]. split; [auto|]. split; [exists p, l|exists q, l']; split; auto; qlra.
Qed.

Lemma pointwise_of : forall op z xe ye, left_at (samples x) e xe -> left_at (samples y) e ye ->
  and_result z b e (fun u => op (fn x u) (fn y u)) (op xe ye) -> pointwise x y op z.
Proof.
  intros op z xe ye Lx Ly [A1 A2 (p & l & Ez & Tz & Fz) A4 A5 A6 A7]. destruct be_facts as [B1 B2].
  unfold pointwise. cbv zeta. fold b e. split; [auto|]. split; [auto|]. split; [|split].
  - split; [auto|]. split; [congruence|]. exists p, l. split; [auto|]. rewrite A1, Tz. qlra.
  - intros t T1 T2. exists (fn x t), (fn y t). rewrite <- !eval_denotes. split; [|split].
    + apply fn_eval; auto. qlra.
    + apply fn_eval; auto. qlra.
    + apply A6; auto.
  - intros Cx Cy. exists xe, ye. rewrite <- !eval_denotes.
    destruct Wx as (Ox & _ & px & lx & Ex & Tx). destruct Wy as (Oy & _ & py & ly & Ey & Ty).
    split; [|split]; auto.
    + eapply left_at_cont; eauto. qlra.
    + eapply left_at_cont; eauto. qlra.
Qed.

Lemma and_claim : exists z, compute_and x y = Ok z /\ pointwise x y qmin z.
Proof.
  destruct pair_hyps as (xe & ye & Lx & Ly & Px & Py). destruct be_facts as [B1 B2].
  destruct (compute_and_ok x y (fn x) (fn y) xe ye) as (z & E & R); auto; try apply Wx; try apply Wy.
  - intros u U1 U2. apply fn_eval; auto. fold b in U1. qlra.
  - intros u U1 U2. apply fn_eval; auto. fold b in U1. qlra.
  - exists z. split; [auto|]. eapply pointwise_of; eauto.
Qed.

Lemma or_claim : exists z, compute_or x y = Ok z /\ pointwise x y qmax z.
Proof.
  destruct pair_hyps as (xe & ye & Lx & Ly & Px & Py). destruct be_facts as [B1 B2].
  destruct (compute_or_ok x y (fn x) (fn y) xe ye) as (z & E & R); auto; try apply Wx; try apply Wy.
  - intros u U1 U2. apply fn_eval; auto. fold b in U1. qlra.
  - intros u U1 U2. apply fn_eval; auto. fold b in U1. qlra.
  - exists z. split; [auto|]. eapply pointwise_of; eauto.
Qed.
End Pair.

Lemma not_claim : forall x,
  (forall t v, denotes (samples x) t v <-> denotes (samples (compute_not x)) t (- v)) /\
  beginTime (compute_not x) = beginTime x /\ endTime (compute_not x) = endTime x /\
  compute_not (compute_not x) = x.
Proof.
  intros x. split; [|split; [reflexivity|split; [reflexivity|apply cnot_cnot]]].
  intros t v. rewrite <- !eval_denotes. cbn [compute_not samples]. rewrite eval_neg.
  split.
  - intros ->. reflexivity.
  - destruct (eval (samples x) t) as [w|]; cbn [option_map]; [|discriminate]. intros H.
    assert (H' : - w = - v) by congruence. f_equal. rewrite <- (Qcopp_involutive w), H', Qcopp_involutive. reflexivity.
Qed.

Lemma wf_not : forall x, wf x -> wf (compute_not x).
Proof.
  intros x (O & B & p & l & E & T). split; [|split]; cbn [compute_not samples beginTime endTime]; auto.
  - apply ordered_neg. auto.
  - rewrite E. exists (neg p), (negl l). auto.
Qed.

Lemma cont_neg : forall l, continuous l -> continuous (negl l).
Proof.
  induction l as [|p l IH]; intros C; [exact I|]. destruct l as [|q l]; [exact I|].
  destruct C as [C1 C2]. split; [|apply IH; auto]. rewrite line_neg, time_neg, C1. reflexivity.
Qed.

Lemma implies_claim : forall x y, wf x -> wf y ->
  qmax (beginTime x) (beginTime y) <= qmin (endTime x) (endTime y) ->
  exists z, compute_implies x y = Ok z /\ pointwise x y (fun v w => qmax (- v) w) z.
Proof.
  intros x y Wx Wy H. destruct (or_claim (compute_not x) y) as (z & E & A1 & A2 & A3 & A4 & A5); auto using wf_not.
  exists z. split; [exact E|]. split; [exact A1|]. split; [exact A2|]. split; [exact A3|]. split.
  - intros t T1 T2. destruct (A4 t T1 T2) as (v & w & D1 & D2 & D3). exists (- v), w.
    split; [|split; auto].
    + apply (proj1 (not_claim x)). rewrite Qcopp_involutive. auto.
    + rewrite Qcopp_involutive. auto.
  - intros Cx Cy. destruct A5 as (v & w & D1 & D2 & D3); auto.
    { cbn [compute_not samples]. apply cont_neg. auto. }
    exists (- v), w. split; [|split; auto].
    + apply (proj1 (not_claim x)). rewrite Qcopp_involutive. auto.
    + rewrite Qcopp_involutive. auto.
Qed.

Lemma eval_eq_denotes : forall l l' t, eval l t = eval l' t -> forall v, denotes l t v <-> denotes l' t v.
Proof. intros l l' t H v. rewrite <- !eval_denotes, H. reflexivity. Qed.

Lemma simplify_claim : forall p l b e, time p = b -> ordered (p :: l) -> Forall (fun q => b < time q) l -> b <= e ->
  exists z, simplify (mkSig (p :: l) b e) = Ok z /\ beginTime z = b /\ endTime z = e /\ ordered (samples z) /\
    (forall t v, b <= t -> t <= e -> (denotes (samples z) t v <-> denotes (p :: l) t v)).
Proof.
  intros p l b e T O F H. destruct (simplify_ok p l b e) as (l' & S1 & S2 & S3 & S4 & _); auto.
  eexists. split; [exact S1|]. cbn [samples beginTime endTime]. split; [auto|]. split; [auto|]. split; [auto|].
  intros t v T1 T2. apply eval_eq_denotes. auto.
Qed.

Lemma resize_claim : forall x s t v, wf x -> beginTime x <= s -> s <= t -> t <= endTime x ->
  (exists q, In q (samples x) /\ s <= time q) \/ s = t ->
  exists z, resize x s t v = Ok z /\ beginTime z = s /\ endTime z = t /\ wf z /\
    (forall u w, s <= u -> u <= t -> (denotes (samples z) u w <-> denotes (samples x) u w)).
Proof.
  intros x s t v W H1 H2 H3 G. destruct (resize_denotes x s t v W H1 H2 H3 G) as (z & E & A1 & A2 & A3 & (p & l & A4 & A5) & A6).
  exists z. split; [auto|]. split; [auto|]. split; [auto|]. split.
  - split; [auto|]. rewrite A1, A2. split; [auto|]. exists p, l. rewrite A5. split; [auto|qlra].
  - intros u w U1 U2. apply eval_eq_denotes. auto.
Qed.

Lemma shift_claim : forall x a,
  (forall t v, denotes (samples x) t v <-> denotes (samples (shift x a)) (t + a) v) /\
  beginTime (shift x a) = beginTime x + a /\ endTime (shift x a) = endTime x + a.
Proof.
  intros x a. split; [|split; reflexivity]. intros t v. rewrite <- !eval_denotes.
  cbn [shift samples]. rewrite eval_shift. reflexivity.
Qed.

Lemma append_claim : forall ip l, l <> [] ->
  exists x, append_all ip empty_signal l = Ok x /\ increasing (samples x) /\
    map (fun p => (time p, value p)) (samples x) = accepted None l /\
    (exists p r, samples x = p :: r /\ beginTime x = time p) /\
    (exists r p, samples x = r ++ [p] /\ endTime x = time p) /\
    (forall t v, t <= endTime x -> appendSample ip x t v = Ok x).
Proof.
  intros ip l N. destruct (append_all_ok ip l) as (x & E1 & E2 & E3). destruct (E3 N) as (H1 & H2 & H3).
  pose proof (tv_rec ip (accepted None l)) as TV. rewrite <- E2 in TV.
  assert (Ns : samples x <> []).
  { intro K. rewrite K in TV. cbn in TV. rewrite <- TV in H1. cbn in H1. congruence. }
  exists x. split; [exact E1|]. split; [|split; [exact TV|split; [|split]]].
  - rewrite E2. apply rec_increasing. apply accepted_rising.
  - destruct (samples x) as [|p r]; [congruence|]. exists p, r. split; auto. rewrite H2, <- TV. reflexivity.
  - destruct (exists_last Ns) as (r & p & K). exists r, p. split; [auto|]. rewrite H3, <- TV, K, !map_app. cbn [map].
    rewrite last_last. reflexivity.
  - intros t v H. apply append_same; auto.
Qed.

Lemma accepted_ne : forall l, l <> [] -> accepted None l <> [].
Proof. intros [|[t v] l] H; [congruence|]. discriminate. Qed.

Lemma linear_claim : forall l x t v, append_all LINEAR empty_signal l = Ok x ->
  linear (accepted None l) t v -> beginTime x <= t -> denotes (samples x) t v.
Proof.
  intros l x t v E L H. destruct (append_all_ok LINEAR l) as (x' & E1 & E2 & E3).
  assert (x' = x) by congruence. subst x'. apply eval_denotes. rewrite E2. cbn [rec_samples].
  apply lin_eval; auto; [apply accepted_rising|].
  destruct l as [|[t0 v0] l].
  { exfalso. destruct L as [? ? ? K|? ? ? ? ? ? K|? ? ? K]; try discriminate; destruct l1; discriminate. }
  destruct E3 as (_ & E3 & _); [discriminate|]. cbn in E3. exists t0. split; [reflexivity|]. congruence.
Qed.

Lemma previous_claim : forall l x t v, append_all PREVIOUS empty_signal l = Ok x ->
  previous (accepted None l) t v -> denotes (samples x) t v.
Proof.
  intros l x t v E L. destruct (append_all_ok PREVIOUS l) as (x' & E1 & E2 & E3).
  assert (x' = x) by congruence. subst x'. apply eval_denotes. rewrite E2. apply prev_eval. auto.
Qed.

Lemma previous_total : forall l t t0 v0 r, l = (t0, v0) :: r -> rising l -> t0 <= t -> exists v, previous l t v.
Proof.
  intros l t t0 v0 r E R H.
  assert (G : forall r l1 t0 v0, t0 <= t -> rising ((t0, v0) :: r) -> exists v, previous (l1 ++ (t0, v0) :: r) t v).
  { clear. induction r as [|[t1 v1] r IH]; intros l1 t0 v0 H R.
    - exists v0. eapply prev_at; eauto.
    - destruct R as [F R]. destruct (Qclt_le_dec t t1) as [L|L].
      + exists v0. eapply prev_at; eauto. constructor; auto. destruct R as [R _].
        eapply Forall_impl; [|exact R]. intros a Ha. cbn in *. qlra.
      + destruct (IH (l1 ++ [(t0, v0)]) t1 v1 L R) as (v & P). rewrite <- app_assoc in P. exists v. exact P. }
  subst l. apply (G r []); auto.
Qed.

(** ** Concrete cases *)
Definition q (z : Z) : Qc := Q2Qc (z # 1).
Definition xs1 : signal Qc := mkSig [mkS (q 0) (q 3) (q (-2)); mkS (q 2) (q (-1)) (q 3); mkS (q 4) (q 0) (q 0)] (q 0) (q 5).
Definition ys1 : signal Qc := mkSig [mkS (q (-1)) (q 0) (q 1); mkS (q 3) (q 4) (q (-4)); mkS (q 3) (q 5) (q 1)] (q 1) (q 6).

Ltac qc := first [reflexivity | vm_compute; discriminate | vm_compute; reflexivity | intros E; vm_compute in E; discriminate].

Lemma wf_xs1 : wf xs1.
Proof.
  split; [|split].
  - cbn [xs1 samples ordered]. repeat (split || constructor || qc).
  - qc.
  - do 2 eexists. split; [reflexivity|qc].
Qed.
Lemma wf_ys1 : wf ys1.
Proof.
  split; [|split].
  - cbn [ys1 samples ordered]. repeat (split || constructor || qc).
  - qc.
  - do 2 eexists. split; [reflexivity|qc].
Qed.

(** ** Counterexamples *)
Ltac not_den := let D := fresh in intro D; apply eval_denotes in D; vm_compute in D; discriminate.
Ltac den := apply eval_denotes; vm_compute; reflexivity.

Lemma append_nan : exists l x p q r,
  @append_all PrimFloat.float NumF LINEAR (@empty_signal PrimFloat.float NumF) l = Ok x /\
  samples x = p ++ q :: r :: nil /\ PrimFloat.ltb (time q) (time r) = false.
Proof.
  exists [(0, 1); (PrimFloat.nan, 2); (0, 3)]%float.
  eexists. exists [mkS 0 1 PrimFloat.nan]%float. eexists. eexists.
  split; [vm_compute; reflexivity|]. split; [reflexivity|]. reflexivity.
Qed.

Lemma and_jump_at_end : exists x z v, wf x /\ endTime x = q 1 /\
  compute_and x x = Ok z /\ denotes (samples x) (q 1) v /\ ~ denotes (samples z) (q 1) v.
Proof.
  exists (mkSig [mkS (q 0) (q 1) (q 0); mkS (q 1) (q (-5)) (q 0)] (q 0) (q 1)).
  eexists. exists (q (-5)). split; [|split; [reflexivity|split; [vm_compute; reflexivity|split]]].
  - split; [|split].
    + cbn [samples ordered]. repeat (split || constructor || qc).
    + qc.
    + do 2 eexists. split; [reflexivity|qc].
  - den.
  - not_den.
Qed.

Lemma simplify_no_begin : exists x, wf x /\ simplify x = UB.
Proof.
  exists (mkSig [mkS (q 0) (q 1) (q 0)] (q 1) (q 2)). split; [|vm_compute; reflexivity].
  split; [|split].
  - cbn [samples ordered]. repeat (split || constructor || qc).
  - qc.
  - do 2 eexists. split; [reflexivity|qc].
Qed.

Lemma simplify_two_at_begin : exists x z, wf x /\ simplify x = Ok z /\ ~ ordered (samples z).
Proof.
  exists (mkSig [mkS (q 0) (q 1) (q 0); mkS (q 0) (q 2) (q 0); mkS (q 1) (q 3) (q 0)] (q 0) (q 2)).
  eexists. split; [|split; [vm_compute; reflexivity|]].
  - split; [|split].
    + cbn [samples ordered]. repeat (split || constructor || qc).
    + qc.
    + do 2 eexists. split; [reflexivity|qc].
  - cbn [samples ordered]. intros (_ & F & _). 
    repeat match goal with H : Forall _ (_ :: _) |- _ => inversion H; clear H; subst end.
    repeat match goal with H : _ <= _ |- _ => vm_compute in H; try (exfalso; apply H; reflexivity) end.
Qed.

Lemma resize_loses_slope : exists x s t u w z, wf x /\ beginTime x <= s /\ s <= u /\ u <= t /\ t <= endTime x /\
  resize x s t 0 = Ok z /\ denotes (samples x) u w /\ ~ denotes (samples z) u w.
Proof.
  exists (mkSig [mkS (q 0) (q 0) (q 1)] (q 0) (q 10)), (q 2), (q 5), (q 3), (q 3). eexists.
  split; [|split; [qc|split; [qc|split; [qc|split; [qc|split; [vm_compute; reflexivity|split]]]]]].
  - split; [|split].
    + cbn [samples ordered]. repeat (split || constructor || qc).
    + qc.
    + do 2 eexists. split; [reflexivity|qc].
  - den.
  - not_den.
Qed.

(** ** removeInf *)
(** A value or a slope is BigM or -BigM. *)
Definition infinite (M : Qc) (p : sample Qc) : Prop := value p = M \/ value p = - M \/ deriv p = M \/ deriv p = - M.
Lemma drop_while_spec : forall A (f : A -> bool) l, exists r, l = r ++ drop_while f l /\ Forall (fun a => f a = true) r /\
  forall a l', drop_while f l = a :: l' -> f a = false.
Proof.
  intros A f l. induction l as [|a l (r & E & F & G)]; cbn.
  - exists []. split; auto. split; auto. discriminate.
  - destruct (f a) eqn:Fa.
    + exists (a :: r). cbn. rewrite <- E. auto.
    + exists []. split; auto. split; auto. intros b l' H. injection H as -> _. exact Fa.
Qed.
Lemma remove_inf_claim : forall M x, exists r, samples x = samples (removeInf M x) ++ r /\ Forall (infinite M) r /\
  (forall l p, samples (removeInf M x) = l ++ [p] -> ~ infinite M p) /\
  beginTime (removeInf M x) = beginTime x /\ endTime (removeInf M x) = endTime x /\
  forall t v, Forall (fun p => t < time p) r -> (denotes (samples x) t v <-> denotes (samples (removeInf M x)) t v).
Proof.
  intros M x. cbn [removeInf samples beginTime endTime]. unfold pop_back_while. set (f := fun p : sample Qc => _).
  assert (Ff : forall p, f p = true <-> infinite M p).
  { intros p. unfold f, infinite. rewrite !orb_true_iff, !neqb_true. cbn [nopp NumQc]. tauto. }
  destruct (drop_while_spec _ f (rev (samples x))) as (r & E & F & G).
  assert (E' : samples x = rev (drop_while f (rev (samples x))) ++ rev r).
  { rewrite <- (rev_involutive (samples x)) at 1. rewrite E at 1. apply rev_app_distr. }
  exists (rev r). split; [exact E'|]. split.
  { apply Forall_rev. eapply Forall_impl; [|exact F]. intros p. apply Ff. }
  split.
  { intros l p H I. assert (D : drop_while f (rev (samples x)) = p :: rev l) by (rewrite <- (rev_involutive (drop_while _ _)), H; apply rev_unit).
    apply G in D. apply Ff in I. congruence. }
  split; auto. split; auto. intros t v L. rewrite E' at 1. generalize (rev (drop_while f (rev (samples x)))). intros y. clear -L. split.
  - intros (l1 & p & l2 & H & T & A & V). revert y l1 H. induction y as [|q y IH]; intros l1 H.
    + exfalso. cbn in H. assert (I : In p (rev r)) by (rewrite H; apply in_or_app; right; left; reflexivity).
      rewrite Forall_forall in L. apply L in I. qlra.
    + destruct l1 as [|q1 l1]; cbn in H; injection H as -> H.
      * exists [], p, y. split; auto. split; auto. split; auto. subst l2. apply Forall_app in A. tauto.
      * destruct (IH l1 H) as (m1 & p' & m2 & -> & T' & A' & V'). exists (q1 :: m1), p', m2. auto.
  - intros (l1 & p & l2 & -> & T & A & V). exists l1, p, (l2 ++ rev r). rewrite <- app_assoc. split; auto. split; auto. split; auto. apply Forall_app. auto.
Qed.
