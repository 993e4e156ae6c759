(** Cases and a counterexample for signals of constant pieces. *)
From Coq Require Import List QArith Qcanon Bool.
From Verif Require Import Num Base Signal QcTac Spec Robust Repr SignalClaims Witness UntilProof StepSig StairSpec StairProof.
Import ListNotations.
Local Open Scope Qc_scope.

Lemma flat_value : forall l t v, flat l -> eval l t = Some v -> exists p, In p l /\ v = value p.
Proof.
  induction l as [|p l IH]; intros t v F E; cbn [eval] in E; [discriminate|].
  pose proof (Forall_inv F) as Fp. apply Forall_inv_tail in F. destruct (eval l t) as [v'|] eqn:E1.
  - injection E as <-. destruct (IH t v' F E1) as (p' & I & K). exists p'. split; [right|]; auto.
  - destruct (nleb (time p) t); [|discriminate]. injection E as <-. exists p. split; [left; auto|]. apply line_flat. exact Fp.
Qed.
Definition at_time (x : signal Qc) (t : Qc) : Qc := match eval (samples x) t with Some v => v | None => 0 end.
Lemma stairs_values : forall x m M, stairs x -> Forall (fun p => m <= value p /\ value p <= M) (samples x) ->
  forall t, beginTime x <= t -> denotes (samples x) t (at_time x t) /\ m <= at_time x t /\ at_time x t <= M.
Proof.
  intros x m M (I & Z & (p & l & E & T) & L) B t T1. unfold at_time.
  destruct (eval_some p l t ltac:(rewrite T; exact T1)) as (v & V). rewrite <- E in V. rewrite V.
  split; [apply eval_denotes; exact V|]. destruct (flat_value _ _ _ Z V) as (p' & J & ->). rewrite Forall_forall in B. apply B; auto.
Qed.
Lemma last_piece : forall x e d v, (forall u, e - d <= u -> u <= e -> eval (samples x) u = Some v) -> 0 < d -> no_jump_at (at_time x) e.
Proof.
  intros x e d v H D. exists d. split; [exact D|]. intros u U1 U2. unfold at_time. rewrite (H u U1 U2), (H e); [reflexivity| |apply Qcle_refl]. qlra.
Qed.

Definition hold_at (t v : Z) : sample Qc := mkS (q t) (q v) 0.
(** 5, -3 from 1, 2 from 3, -2 from 5, 1 from 7, -5 from 8, up to 10. *)
Definition climbs : signal Qc := mkSig [hold_at 0 5; hold_at 1 (-3); hold_at 3 2; hold_at 5 (-2); hold_at 7 1; hold_at 8 (-5)] (q 0) (q 10).
(** From 1 on. *)
Definition climbs1 : signal Qc := mkSig [hold_at 1 (-3); hold_at 3 2; hold_at 6 (-1)] (q 1) (q 10).
Definition stays : signal Qc := mkSig [hold_at 0 4; hold_at 4 1; hold_at 9 (-1)] (q 0) (q 10).
Definition waits1 : signal Qc := mkSig [hold_at 0 1] (q 0) (q 2).
Definition last_up : signal Qc := mkSig [hold_at 0 (-1); hold_at 2 1] (q 0) (q 2).

Ltac stair := split; [cbn; repeat split; repeat constructor; qdec|]; split; [repeat constructor|]; split; [do 2 eexists; split; reflexivity|repeat constructor; qdec].
Lemma climbs_stairs : stairs climbs.
Proof. stair. Qed.
Lemma climbs1_stairs : stairs climbs1.
Proof. stair. Qed.
Lemma stays_stairs : stairs stays.
Proof. stair. Qed.
Lemma waits1_stairs : stairs waits1.
Proof. stair. Qed.
Lemma last_up_stairs : stairs last_up.
Proof. stair. Qed.

Lemma within5 : forall x, x = climbs \/ x = climbs1 \/ x = stays \/ x = waits1 \/ x = last_up -> forall t, beginTime x <= t -> t <= endTime x ->
  denotes (samples x) t (at_time x t) /\ - q 100 <= at_time x t /\ at_time x t <= q 100.
Proof.
  intros x [->|[->|[->|[->| ->]]]] t T1 _; apply stairs_values; auto;
    first [exact climbs_stairs|exact climbs1_stairs|exact stays_stairs|exact waits1_stairs|exact last_up_stairs|repeat constructor; qdec].
Qed.
Lemma climbs1_end : no_jump_at (at_time climbs1) (q 10).
Proof.
  apply (last_piece climbs1 (q 10) (q 1) (q (-1))); [|qdec]. intros u U1 U2. cbn [climbs1 samples].
  change [hold_at 1 (-3); hold_at 3 2; hold_at 6 (-1)] with ([hold_at 1 (-3); hold_at 3 2] ++ hold_at 6 (-1) :: []).
  assert (K : time (hold_at 6 (-1)) <= u) by (eapply Qcle_trans; [|exact U1]; qdec).
  cbn [app eval]. rewrite (proj2 (nleb_true _ _) K). f_equal.
Qed.

(** x = 1 until y, which becomes 1 at the end only. *)
Lemma until_misses_end : exists x y z v d l, stairs x /\ stairs y /\ beginTime x = beginTime y /\ endTime x = endTime y /\
  beginTime x < endTime x /\ compute_until (q 100) empty_signal x y = Ok z /\ samples z = mkS (beginTime x) v d :: l /\
  forall f g w, (forall t, beginTime x <= t -> t <= endTime x -> denotes (samples x) t (f t)) ->
    (forall t, beginTime y <= t -> t <= endTime y -> denotes (samples y) t (g t)) ->
    is_until f g (beginTime x) (beginTime x) (endTime x) w -> v < w.
Proof.
  exists waits1, last_up. do 4 eexists. split; [exact waits1_stairs|]. split; [exact last_up_stairs|]. split; [reflexivity|]. split; [reflexivity|].
  split; [qdec|]. split; [vm_compute; reflexivity|]. split; [cbn [samples]; f_equal; f_equal; apply Qc_is_canon; reflexivity|].
  intros f g w Vf Vg (h & H1 & [H2 _]). specialize (H2 (q 2) ltac:(qdec) ltac:(qdec)). specialize (H1 (q 2) ltac:(qdec) ltac:(qdec)).
  assert (G : g (q 2) = q 1).
  { specialize (Vg (q 2) ltac:(qdec) ltac:(qdec)). apply eval_denotes in Vg.
    assert (EV : eval (samples last_up) (q 2) = Some (q 1)) by (vm_compute; reflexivity). congruence. }
  assert (Hh : q 1 <= h (q 2)).
  { destruct H1 as [_ H1]. apply H1. intros u U1 U2. specialize (Vf u U1 U2). apply eval_denotes in Vf.
    destruct (flat_value _ _ _ (proj1 (proj2 waits1_stairs)) Vf) as (p & [<-|[]] & ->). qdec. }
  rewrite G in H2. assert (q 1 <= w) by (eapply Qcle_trans; [|exact H2]; apply le_min; split; [apply Qcle_refl|auto]).
  eapply Qclt_le_trans; [|eassumption]. qdec.
Qed.
