(** The first value of until on signals that need not be in step. *)
From Coq Require Import List QArith Qcanon Bool Lia.
From Verif Require Import Num Base Signal QcTac Spec Robust Repr AndProof Lip BoolOps Closed SigProof ResizeProof SignalClaims EvProof BoundedProof TimedProof TimedCases UntilProof UntilTimed UntilClaims Front UntilFront.
Import ListNotations.
Local Open Scope Qc_scope.

Lemma jfront_first : forall s v z, jfront s v z -> exists l, samples z = mkS (beginTime z) v (deriv (hd (mkS 0 0 0) (samples z))) :: l.
Proof. intros s v z (_ & _ & [t x d] & l & E & T & (_ & G & _) & _). rewrite E. cbn in T, G |- *. subst. eauto. Qed.

Lemma until_start : forall M x y f g, simple x -> simple y ->
  let b := qmax (beginTime x) (beginTime y) in
  let e := qmin (endTime x) (endTime y) in
  b < e ->
  (forall t, beginTime x <= t -> t <= endTime x -> denotes (samples x) t (f t) /\ - M <= f t) ->
  (forall t, beginTime y <= t -> t <= endTime y -> denotes (samples y) t (g t) /\ - M <= g t) ->
  exists z v d l, compute_until M empty_signal x y = Ok z /\ beginTime z = b /\ endTime z = e /\
    samples z = mkS b v d :: l /\ is_until f g b b e v.
Proof.
  intros M x y f g Sx Sy b e Lt Fx Fy.
  assert (Rx : crep f x) by (apply simple_crep; auto; intros t T1 T2; apply Fx; auto).
  assert (Ry : crep g y) by (apply simple_crep; auto; intros t T1 T2; apply Fy; auto).
  assert (B1 : beginTime x <= b /\ beginTime y <= b) by (unfold b; destruct (qmax_cases (beginTime x) (beginTime y)) as [[-> ?]|[-> ?]]; split; qlra).
  assert (B2 : e <= endTime x /\ e <= endTime y) by (unfold e; destruct (qmin_cases (endTime x) (endTime y)) as [[-> ?]|[-> ?]]; split; qlra).
  destruct B1, B2.
  destruct (until_front M f g x y) as (z & v & E & Z1 & Z2 & J & U); auto.
  - intros u U1 U2. fold b in U1. fold e in U2. apply Fx; qlra.
  - intros u U1 U2. fold b in U1. fold e in U2. apply Fy; qlra.
  - fold b e in Z1, Z2, J, U. destruct (jfront_first _ _ _ J) as (l & L). rewrite Z1 in L.
    exists z, v, (deriv (hd (mkS 0 0 0) (samples z))), l. split; [|auto].
    rewrite <- E. unfold compute_until, computeUntil.
    destruct Rx as [Nx _]. destruct Ry as [Ny _].
    destruct (samples x) as [|sx lx] eqn:Ex; [congruence|]. destruct (samples y) as [|sy ly] eqn:Ey; [congruence|]. reflexivity.
Qed.

Lemma timed_until_start : forall M self x y f g a d, simple x -> simple y ->
  let b := beginTime x in let e := qmin (endTime x) (endTime y) in
  0 <= a -> a < d -> 0 <= b -> beginTime y = b + a -> b + d <= e \/ (e < d /\ b + a < e) ->
  (forall t, beginTime x <= t -> t <= endTime x -> denotes (samples x) t (f t) /\ - M <= f t /\ f t <= M) ->
  (forall t, beginTime y <= t -> t <= endTime y -> denotes (samples y) t (g t) /\ - M <= g t) ->
  exists z v c l, compute_timed_until M self x y a d = Ok z /\ beginTime z = b /\ endTime z = e - a /\
    samples z = mkS b v c :: l /\ is_until f g b (b + a) (qmin (b + d) e) v.
Proof.
  intros M self x y f g a d Sx Sy b e A0 Ad B0 By Len Fx Fy.
  assert (Rx : crep f x) by (apply simple_crep; auto; intros t T1 T2; apply Fx; auto).
  assert (Ry : crep g y) by (apply simple_crep; auto; intros t T1 T2; apply Fy; auto).
  destruct (timed_front M self f g x y a d) as (z & v & E & Z1 & Z2 & J & U); auto.
  - intros u U1 U2. apply Fx; auto.
  - intros u U1 U2. apply Fy; auto. rewrite By. auto.
  - fold b in Z1, J, U. fold e in Z2, U. destruct (jfront_first _ _ _ J) as (l & L). rewrite Z1 in L.
    exists z, v, (deriv (hd (mkS 0 0 0) (samples z))), l. do 4 (split; [auto|]).
    destruct U as (h & U1 & U2). exists h. split; [|exact U2]. intros u V1 V2. apply U1; auto.
    destruct (qmin_cases (b + d) e) as [[Q ?]|[Q ?]]; rewrite Q in V2; qlra.
Qed.

(** A left operand that starts to rise inside a falling piece of the right one, which has
    two samples at time 3. *)
Definition rises : signal Qc := mkSig [mkS (q 0) (q 20) (q 0); mkS (q 1) (q 20) (q 1)] (q 0) (q 4).
Definition falls : signal Qc := mkSig [mkS (q 0) (q 10) (q (-4)); mkS (q 2) (q 2) (q 1); mkS (q 3) (q 3) (q 0); mkS (q 3) (q 3) (q 1)] (q 0) (q 4).
Lemma rises_simple : simple rises.
Proof.
  split; [do 2 eexists; split; reflexivity|]. split; [|split].
  - cbn [rises samples ordered]. repeat (split || constructor || qc).
  - cbn [rises samples continuous]. split; [|exact I]. apply Qc_is_canon; vm_compute; reflexivity.
  - repeat (constructor || qc).
Qed.
Lemma falls_simple : simple falls.
Proof.
  split; [do 2 eexists; split; reflexivity|]. split; [|split].
  - cbn [falls samples ordered]. repeat (split || constructor || qc).
  - cbn [falls samples continuous]. repeat (split; [apply Qc_is_canon; vm_compute; reflexivity|]). exact I.
  - repeat (constructor || qc).
Qed.
Lemma eval_in : forall l t v, eval l t = Some v -> exists p, In p l /\ time p <= t /\ line p t = v.
Proof.
  induction l as [|p l IH]; intros t v E; [discriminate|]. cbn [eval] in E.
  destruct (eval l t) as [w|] eqn:W.
  - injection E as <-. destruct (IH t w W) as (r & R1 & R2). exists r. split; [right; auto|auto].
  - destruct (nleb (time p) t) eqn:C; [|discriminate]. injection E as <-. exists p. split; [left; reflexivity|]. split; [qb; auto|reflexivity].
Qed.
Lemma bounds_of : forall x M, simple x -> (forall t p, beginTime x <= t -> t <= endTime x -> In p (samples x) -> time p <= t -> - M <= line p t /\ line p t <= M) ->
  forall t, beginTime x <= t -> t <= endTime x -> denotes (samples x) t (fn x t) /\ - M <= fn x t /\ fn x t <= M.
Proof.
  intros x M S H t T1 T2. pose proof (fn_eval x t (simple_wf _ S) T1) as E. split; [apply eval_denotes; auto|].
  destruct (eval_in _ _ _ E) as (p & P1 & P2 & <-). auto.
Qed.
Lemma rises_values : forall t, beginTime rises <= t -> t <= endTime rises -> denotes (samples rises) t (fn rises t) /\ - q 100 <= fn rises t /\ fn rises t <= q 100.
Proof.
  apply bounds_of; [exact rises_simple|]. intros t p T1 T2 I L. change (beginTime rises) with (q 0) in T1. change (endTime rises) with (q 4) in T2.
  cbn [rises samples] in I. unfold q in *. destruct I as [<-|[<-|[]]]; unfold line; cbn [time value deriv]; split; qlra.
Qed.
Lemma falls_values : forall t, beginTime falls <= t -> t <= endTime falls -> denotes (samples falls) t (fn falls t) /\ - q 100 <= fn falls t /\ fn falls t <= q 100.
Proof.
  apply bounds_of; [exact falls_simple|]. intros t p T1 T2 I L. change (beginTime falls) with (q 0) in T1. change (endTime falls) with (q 4) in T2.
  cbn [falls samples] in I. unfold q in *. destruct I as [<-|[<-|[<-|[<-|[]]]]]; unfold line; cbn [time value deriv]; split; qlra.
Qed.
Lemma rises_falls : ~ in_step rises falls /\ ~ increasing (samples falls).
Proof.
  split; intros H.
  - specialize (H (mkS (q 1) (q 20) (q 1)) [] (mkS (q 0) (q 10) (q (-4))) (tl (samples falls)) (or_intror (or_introl eq_refl))).
    destruct H as [H|H]; try qc; try reflexivity.
    + repeat (constructor; [qc|]). constructor.
    + exact (H eq_refl).
  - destruct H as (_ & _ & H & _). inversion H as [|? ? A]. exact (Qclt_not_eq _ _ A eq_refl).
Qed.
(** The right operand as a formula hands it over for a window [1,3]: from time 1 on. *)
Definition later : signal Qc := mkSig [mkS (q 1) (q 10) (q (-4)); mkS (q 3) (q 2) (q 1)] (q 1) (q 4).
Lemma later_simple : simple later.
Proof.
  split; [do 2 eexists; split; reflexivity|]. split; [|split].
  - cbn [later samples ordered]. repeat (split || constructor || qc).
  - cbn [later samples continuous]. repeat (split; [apply Qc_is_canon; vm_compute; reflexivity|]). exact I.
  - repeat (constructor || qc).
Qed.
Lemma later_values : forall t, beginTime later <= t -> t <= endTime later -> denotes (samples later) t (fn later t) /\ - q 100 <= fn later t /\ fn later t <= q 100.
Proof.
  apply bounds_of; [exact later_simple|]. intros t p T1 T2 I L. change (beginTime later) with (q 1) in T1. change (endTime later) with (q 4) in T2.
  cbn [later samples] in I. unfold q in *. destruct I as [<-|[<-|[]]]; unfold line; cbn [time value deriv]; split; qlra.
Qed.
