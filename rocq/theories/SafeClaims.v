(** Evaluations that do not fail, and some that do. *)
From Coq Require Import List String QArith Qcanon Bool.
From Verif Require Import Num Base Signal QcTac Robust Transducer Spec StlSpec SigProof ReadProof SignalClaims TreeProof StlClaims Witness Driver SafeTree.
Import ListNotations.
Local Open Scope string_scope.
Local Open Scope Qc_scope.

Lemma safe_claim : forall w E f t s e, e_sem E = SPACE -> trace w (e_data E) -> stands_for t f ->
  no_until (bound_value E) w f -> 0 <= e -> exists r lo up, numbers (evaluate E t s e) = Ok (r, lo, up).
Proof. intros w E f t s e SP TR Sk X H. exact (evaluation_safe E w TR SP f t s e Sk X H). Qed.

Lemma online_safe : forall w S d phi t f t0, find phi (d_formulas d) = Some t -> stands_for t f ->
  d_sem d = SPACE -> trace w (d_data d) ->
  no_until (fun b => match bstr b with Some k => match find k (d_params d) with Some v => v | None => bnum b end | None => bnum b end) w f ->
  0 <= t0 -> exists S' d' r lo up, dstep S d (DOnlineRob phi t0) = Ok (S', d', OVec [r; lo; up]) /\
    d_data d' = d_data d /\ d_params d' = d_params d.
Proof.
  intros w S d phi t f t0 F Sk SP TR X H. cbn [dstep]. unfold d_online. rewrite F. pose proof TR as (D & _).
  destruct (d_data d) eqn:ED; [congruence|]. rewrite <- ED in *. unfold eval_tree.
  set (E := mkEnv (s_sem (mkStat (d_sem d) (d_ip d) (s_M S))) (s_ip (mkStat (d_sem d) (d_ip d) (s_M S))) (s_M (mkStat (d_sem d) (d_ip d) (s_M S))) (d_data d) (d_params d)).
  assert (LF : forall k (m : list (string * Qc)), lookup k m = find k m).
  { intros k m. induction m as [|[k' v] m IH]; cbn [lookup find]; [reflexivity|]. rewrite IH. reflexivity. }
  assert (X' : no_until (bound_value E) w f).
  { assert (B : forall b, bound_value E b = match bstr b with Some k => match find k (d_params d) with Some v => v | None => bnum b end | None => bnum b end).
    { intros b. unfold bound_value, get_param. destruct (bstr b); [|reflexivity]. rewrite LF. reflexivity. }
    clear -X B. induction f; cbn [no_until] in *; try contradiction; auto; try tauto; rewrite B; tauto. }
  destruct (safe_claim w E f t t0 t0 SP TR Sk X' H) as (r & lo & up & N).
  unfold numbers in N. destruct (evaluate E t t0 t0) as [[[[r' lo'] up'] t']| | | |]; try discriminate.
  cbn [bind]. injection N as -> -> ->. do 5 eexists. split; [reflexivity|]. split; reflexivity.
Qed.

Definition env_s (sm : semantics) (d : list (list Qc)) : env Qc := mkEnv sm LINEAR (q 10000) d [].
Definition one_row : list (list Qc) := [[q 0; q 1; q 1]].
Definition two_rows : list (list Qc) := [[q 0; q 1; q 1]; [q 1; q (-1); q 1]].
(** alw_[0,5] (abs(x) - 2 * y > x => ev_[3,4] not x > 0) or x > 0, on one sample *)
Definition rich : fml Qc :=
  FOr (FAlw (iv 0 5) (FImp (FAtom (FMinus (FAbs (FSig "x" 1)) (FMult (FConst None (q 2)) (FSig "y" 2))) GREATERTHAN (FSig "x" 1))
                           (FEv (iv 3 4) (FNot (pos 1))))) (pos 1).
Lemma rich_no_until : forall d, no_until (bound_value (env_of d)) 2 rich.
Proof.
  intros d. cbn [no_until rich expression pos]. repeat match goal with |- _ /\ _ => split end; first [exact I | qdec | repeat constructor].
Qed.
Lemma one_trace : trace 2 one_row.
Proof. apply trace_check. vm_compute. reflexivity. Qed.
Lemma two_trace : trace 2 two_rows.
Proof. apply trace_check. vm_compute. reflexivity. Qed.

(** Declaring a signal after the first samples. *)
Definition fresh : world Qc := mkW (mkStat SPACE LINEAR (q 10000)) [new_driver] [].
Definition late_signal : list (call Qc) :=
  [CDrv 0 (DSignal "x"); CDrv 0 (DAddSample [q 0; q 1]); CDrv 0 (DSignal "y"); CDrv 0 (DAddSample [q 1; q 1; q 1]);
   CDrv 0 (DFormula "phi" (pos 2)); CDrv 0 (DOnlineRob "phi" (q 0))].
