(** A text and samples for C58: until asked early, and held signals. *)
From Coq Require Import List Bool String ZArith QArith Qcanon.
From Verif Require Import Num Base Signal QcTac Robust Transducer Spec TreeProof Driver DriverSpec Tables Parser ParserSpec ParserTotal LangSpec LangClaims Decimal SignalClaims Witness UntilTree UntilWitness UntilOnline UntilEarly StlSpec StlClaims EndSpec EndWitness StepSpec StepClaims StepWitness EndMoreSpec.
Import ListNotations.
Local Open Scope string_scope.
Local Open Scope Qc_scope.

Definition more_text : string := "signal x, y
 keen := (((x[t] + y[t] > 1) or (2*y[t] - x[t] > 0)) until_[0, 4] (2*y[t] - x[t] > 0)) and (not alw_[0, 2] (2*y[t] - x[t] > 0))
 both := (alw_[0, 2] ((x[t] > 0) or (not ev_[0, 2] (y[t] > 0)))) and (not (x[t] + y[t] > 7))".
Definition more_known : known (T := Qc) := match parse decimal (new_driver, []) more_text with Ok (_, d) => d | _ => (new_driver, []) end.
(** [both] with the name of the second signal. *)
Definition both_xy : fml Qc :=
  FAnd (FAlw (iv 0 2) (FOr (pos 1) (FNot (FEv (iv 0 2) (FAtom (FSig "y" 2) GREATERTHAN (FConst None (q 0))))))) (FNot sum7).

Lemma more_language : in_language decimal (new_driver, []) more_text more_known.
Proof.
  apply parse_in_language; [vm_compute; reflexivity|]. unfold more_known.
  assert (H : match parse decimal (new_driver, []) more_text with Ok (b, _) => b | _ => false end = true) by (vm_compute; reflexivity).
  destruct (parse decimal (new_driver, []) more_text) as [[b d]| | | |]; try discriminate H. rewrite H. reflexivity.
Qed.
Lemma more_signals : List.length (d_signals (fst more_known)) = 2%nat.
Proof. vm_compute. reflexivity. Qed.
Lemma more_keen : meaning more_known "keen" = Some keen.
Proof. vm_compute. repeat same. Qed.
Lemma more_both : meaning more_known "both" = Some both_xy.
Proof. vm_compute. repeat same. Qed.
Lemma more_params : d_params (fst more_known) = [].
Proof. vm_compute. reflexivity. Qed.
Lemma more_env : forall rows, text_env end_statics (fst more_known) rows = env_of rows.
Proof. intro rows. unfold text_env, env_of. rewrite more_params. reflexivity. Qed.
Lemma more_held : forall rows, held_env end_statics (fst more_known) rows = env_p rows.
Proof. intro rows. unfold held_env, env_p. rewrite more_params. reflexivity. Qed.

Lemma keen_pending : pending 2 false (env_of mix_partial) (env_of (mix_partial ++ mix_more)) keen (q 100) (q 1) 0 0.
Proof.
  constructor.
  - constructor.
    + apply mix_trace. auto.
    + apply (sided_ufrag _ _ keen false). exact keen_sided.
    + qdec.
    + qdec.
    + cbn [covers keen x_plus_y y_over_x]. repeat split; qdec.
    + qdec.
    + exact keen_within.
    + qdec.
    + apply keen_regular. auto.
    + cbn [uncut keen x_plus_y y_over_x]. repeat split; qdec.
  - repeat split. exists mix_more. reflexivity.
  - discriminate.
  - exact keen_sided.
  - cbn [started keen x_plus_y y_over_x]. repeat split; qdec.
  - apply keen_regular. auto.
  - cbn [uncut keen x_plus_y y_over_x]. repeat split; qdec.
  - exact keen_grid.
  - exact keen_begun.
Qed.
Lemma keen_now : exists r lo up, numbers (evaluate (env_of mix_partial) (build keen) 0 0) = Ok (r, lo, up).
Proof. do 3 eexists. vm_compute. reflexivity. Qed.

Lemma both_kept : kept 2 (env_p steps) both_xy 0 0.
Proof.
  constructor.
  - exact steps_holding.
  - exact both_timed.
  - qdec.
  - qdec.
  - exact both_covers.
  - exact both_within.
  - exact both_at_samples.
  - exact both_settled.
Qed.
Lemma steps_rows : rows_for 2 steps.
Proof. destruct steps_holding as (_ & _ & _ & R & _). split; [exact R|]. repeat constructor. Qed.
