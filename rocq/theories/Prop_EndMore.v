(** C58 for formulas with until asked early, and for held signals.  The conditions are in
    EndMoreSpec.v. *)
From Coq Require Import List Bool String ZArith QArith Qcanon.
From Verif Require Import Num Base Signal QcTac Robust Transducer Spec TreeProof Driver DriverSpec Tables Parser ParserSpec ParserTotal LangSpec LangClaims Decimal SignalClaims Witness UntilTree UntilWitness UntilOnline UntilEarly StlSpec StlClaims EndSpec EndWitness StepSpec StepClaims StepWitness EndMoreSpec EndMore EndMoreWitness.
Import ListNotations.
Local Open Scope string_scope.
Local Open Scope Qc_scope.

(** A monitor of a formula with until, asked in the middle of the samples and at their end:
    if the first evaluation goes well, its lower bound ([b] is [false]) or its upper bound
    ([true]) is one for the robustness, which is returned at the end.  Missing: the other
    bound, refuted (C23_refuted_until), and the failures of the first evaluation (C32). *)
Theorem C58_online_until_partial : forall value s d' phi f S rows more m d t b r lo up, in_language value (new_driver, []) s d' -> meaning d' phi = Some f ->
  rows_for (List.length (d_signals (fst d'))) (rows ++ more) ->
  pending (List.length (d_signals (fst d'))) b (text_env S (fst d') rows) (text_env S (fst d') (rows ++ more)) f m d t t ->
  numbers (evaluate (text_env S (fst d') rows) (build f) t t) = Ok (r, lo, up) ->
  exists d1 w v, parse value (new_driver, []) s = Ok (true, d1) /\
    run (mkW S [fst d1] []) (CGetMonitor 0 phi :: feed_monitor rows ++ ask_monitor t ++ feed_monitor more ++ ask_monitor t) =
      Ok (w, ODone :: done (List.length rows) ++ [ONum r; ONum lo; ONum up] ++ done (List.length more) ++ [ONum v; ONum v; ONum v])%list /\
    rob (eff (text_env S (fst d') (rows ++ more))) (bound_value (text_env S (fst d') (rows ++ more))) (rows ++ more) f t v /\
    if b then v <= up else lo <= v.
Proof. exact pending_claim. Qed.
Print Assumptions C58_online_until_partial.

(** A new driver reads a text, is set to previous-value interpolation, is given samples and
    is asked for a formula: the first number is the robustness over the held signals.
    Missing: the bounds, refuted (C54_refuted_bounds). *)
Theorem C58_held_partial : forall value s d' phi f S rows t, in_language value (new_driver, []) s d' -> meaning d' phi = Some f ->
  rows_for (List.length (d_signals (fst d'))) rows ->
  kept (List.length (d_signals (fst d'))) (held_env S (fst d') rows) f t t ->
  exists d1 w v lo up, parse value (new_driver, []) s = Ok (true, d1) /\
    run (mkW S [fst d1] []) (CDrv 0 (DSetInterpol "PREVIOUS") :: feed_driver rows ++ [CDrv 0 (DOnlineRob phi t)]) =
      Ok (w, ODone :: done (List.length rows) ++ [OVec [v; lo; up]])%list /\
    rob_of held (eff (held_env S (fst d') rows)) (bound_value (held_env S (fst d') rows)) rows f t v.
Proof. exact kept_claim. Qed.
Print Assumptions C58_held_partial.

Example C58_online_until_case : in_language decimal (new_driver, []) more_text more_known /\ meaning more_known "keen" = Some keen /\
  rows_for (List.length (d_signals (fst more_known))) (mix_partial ++ mix_more) /\
  pending (List.length (d_signals (fst more_known))) false (text_env end_statics (fst more_known) mix_partial)
    (text_env end_statics (fst more_known) (mix_partial ++ mix_more)) keen (q 100) (q 1) 0 0 /\
  exists r lo up, numbers (evaluate (text_env end_statics (fst more_known) mix_partial) (build keen) 0 0) = Ok (r, lo, up).
Proof. rewrite !more_env, more_signals. exact (conj more_language (conj more_keen (conj end_rows (conj keen_pending keen_now)))). Qed.
Example C58_held_case : in_language decimal (new_driver, []) more_text more_known /\ meaning more_known "both" = Some both_xy /\
  rows_for (List.length (d_signals (fst more_known))) steps /\
  kept (List.length (d_signals (fst more_known))) (held_env end_statics (fst more_known) steps) both_xy 0 0.
Proof. rewrite more_held, more_signals. exact (conj more_language (conj more_both (conj steps_rows both_kept))). Qed.
