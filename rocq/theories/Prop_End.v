(** C58: from a text and samples to numbers.  The conditions are in EndSpec.v. *)
From Coq Require Import List Bool String ZArith QArith Qcanon.
From Verif Require Import Num Base Signal QcTac Robust Transducer Spec TreeProof Driver DriverSpec Tables Parser ParserSpec ParserTotal LangSpec LangClaims Decimal SignalClaims Witness UntilTree UntilWitness StlSpec StlClaims EndSpec EndProof EndWitness.
Import ListNotations.
Local Open Scope string_scope.
Local Open Scope Qc_scope.

(** A driver in any state, whatever calls led to it: get_online_rob(phi, t) returns the robustness, three times. *)
Theorem C58_driver_partial : forall w m S (d : driver Qc) phi t tr f, find phi (d_formulas d) = Some tr -> stands_for tr f ->
  complete w (driver_env S d) f m t t ->
  exists S' d' v, dstep S d (DOnlineRob phi t) = Ok (S', d', OVec [v; v; v]) /\
    rob (eff (driver_env S d)) (bound_value (driver_env S d)) (d_data d) f t v.
Proof. exact driver_claim. Qed.
Print Assumptions C58_driver_partial.

(** A monitor in any state: eval_rob(s, e) returns the robustness at s, and get_rob, get_lower_rob and get_upper_rob
    return it after that. *)
Theorem C58_monitor_partial : forall w m S (x : monitor Qc) s e tr f, m_formula x = Some tr -> stands_for tr f ->
  complete w (monitor_env S x) f m s e ->
  exists S' x' v, mstep S x (MEvalOver s e) = Ok (S', x', ONum v) /\
    mstep S' x' MRob = Ok (S', x', ONum v) /\ mstep S' x' MLowerRob = Ok (S', x', ONum v) /\ mstep S' x' MUpperRob = Ok (S', x', ONum v) /\
    rob (eff (monitor_env S x)) (bound_value (monitor_env S x)) (m_data x) f s v.
Proof. exact monitor_claim. Qed.
Print Assumptions C58_monitor_partial.

(** A new driver reads a text of the language, is given samples and is asked for the formula the text defines. *)
Theorem C58_text_partial : forall value s d' phi f S rows m t, in_language value (new_driver, []) s d' -> meaning d' phi = Some f ->
  rows_for (List.length (d_signals (fst d'))) rows ->
  complete (List.length (d_signals (fst d'))) (text_env S (fst d') rows) f m t t ->
  exists d1 w v, parse value (new_driver, []) s = Ok (true, d1) /\
    run (mkW S [fst d1] []) (feed_driver rows ++ [CDrv 0 (DOnlineRob phi t)]) = Ok (w, done (List.length rows) ++ [OVec [v; v; v]])%list /\
    rob (eff (text_env S (fst d') rows)) (bound_value (text_env S (fst d') rows)) rows f t v.
Proof. exact text_claim. Qed.
Print Assumptions C58_text_partial.

(** A monitor of that formula, asked in the middle of the samples and at their end: the interval in the middle contains
    the robustness, which is what is returned at the end. *)
Theorem C58_online_partial : forall value s d' phi f S rows more m d t, in_language value (new_driver, []) s d' -> meaning d' phi = Some f ->
  rows_for (List.length (d_signals (fst d'))) (rows ++ more) ->
  early (List.length (d_signals (fst d'))) (text_env S (fst d') rows) (text_env S (fst d') (rows ++ more)) f m d t t ->
  exists d1 w r lo up v, parse value (new_driver, []) s = Ok (true, d1) /\
    run (mkW S [fst d1] []) (CGetMonitor 0 phi :: feed_monitor rows ++ ask_monitor t ++ feed_monitor more ++ ask_monitor t) =
      Ok (w, ODone :: done (List.length rows) ++ [ONum r; ONum lo; ONum up] ++ done (List.length more) ++ [ONum v; ONum v; ONum v])%list /\
    rob (eff (text_env S (fst d') (rows ++ more))) (bound_value (text_env S (fst d') (rows ++ more))) (rows ++ more) f t v /\ lo <= v /\ v <= up.
Proof. exact online_claim. Qed.
Print Assumptions C58_online_partial.

Example C58_text_case : in_language decimal (new_driver, []) end_text end_known /\ meaning end_known "pact" = Some pact /\
  rows_for (List.length (d_signals (fst end_known))) (mix_partial ++ mix_more) /\
  complete (List.length (d_signals (fst end_known))) (text_env end_statics (fst end_known) (mix_partial ++ mix_more)) pact (q 100) 0 0.
Proof. rewrite end_env, end_signals. exact (conj end_language (conj end_pact (conj end_rows end_pact_complete))). Qed.
Example C58_online_case : in_language decimal (new_driver, []) end_text end_known /\ meaning end_known "mix" = Some mix /\
  rows_for (List.length (d_signals (fst end_known))) (mix_partial ++ mix_more) /\
  early (List.length (d_signals (fst end_known))) (text_env end_statics (fst end_known) mix_partial)
    (text_env end_statics (fst end_known) (mix_partial ++ mix_more)) mix (q 100) (q 1) 0 0.
Proof. rewrite !end_env, end_signals. exact (conj end_language (conj end_mix (conj end_rows end_mix_early))). Qed.
Example C58_driver_case : exists d tr, find "pact" (d_formulas d) = Some tr /\ stands_for tr pact /\ complete 2 (driver_env end_statics d) pact (q 100) 0 0.
Proof.
  exists (mkDrv (mix_partial ++ mix_more) [] [] [("pact", build pact)] SPACE LINEAR), (build pact).
  split; [reflexivity|]. split; [reflexivity|exact end_pact_complete].
Qed.
Example C58_monitor_case : exists x tr, m_formula x = Some tr /\ stands_for tr pact /\ complete 2 (monitor_env end_statics x) pact (q 100) 0 0.
Proof.
  exists (mkMon (mix_partial ++ mix_more) [] [] 0 0 0 0 0 (Some (build pact)) SPACE LINEAR), (build pact).
  split; [reflexivity|]. split; [reflexivity|exact end_pact_complete].
Qed.
