(** A text and samples for C58. *)
From Coq Require Import List Bool String ZArith QArith Qcanon.
From Verif Require Import Num Base Signal QcTac Robust Transducer Spec TreeProof Driver DriverSpec Tables Parser ParserSpec ParserTotal LangSpec LangClaims Decimal SignalClaims Witness UntilTree UntilWitness StlSpec StlClaims EndSpec.
Import ListNotations.
Local Open Scope string_scope.
Local Open Scope Qc_scope.

Definition end_text : string := "signal x, y
 mix := alw_[0, 2] ((x[t] + y[t] > 1) => ev_[0, 2] (2*y[t] - x[t] > 0))
 pact := (((x[t] + y[t] > 1) until_[1, 3] (2*y[t] - x[t] > 0)) and (not ((2*y[t] - x[t] > 0) until_[0, 2] (x[t] + y[t] > 1)))) => alw_[0, 1] (2*y[t] - x[t] > 0)".
Definition end_known : known (T := Qc) := match parse decimal (new_driver, []) end_text with Ok (_, d) => d | _ => (new_driver, []) end.
Definition end_statics : statics Qc := mkStat SPACE LINEAR (q 10000).

Lemma end_language : in_language decimal (new_driver, []) end_text end_known.
Proof.
  apply parse_in_language; [vm_compute; reflexivity|]. unfold end_known.
  assert (H : match parse decimal (new_driver, []) end_text with Ok (b, _) => b | _ => false end = true) by (vm_compute; reflexivity).
  destruct (parse decimal (new_driver, []) end_text) as [[b d]| | | |]; try discriminate H. rewrite H. reflexivity.
Qed.
Lemma end_signals : List.length (d_signals (fst end_known)) = 2%nat.
Proof. vm_compute. reflexivity. Qed.
Ltac same := first [reflexivity | apply Qc_is_canon; reflexivity | progress f_equal; same].
Lemma end_mix : meaning end_known "mix" = Some mix.
Proof. vm_compute. repeat same. Qed.
Lemma end_pact : meaning end_known "pact" = Some pact.
Proof. vm_compute. repeat same. Qed.
Lemma end_env : forall rows, text_env end_statics (fst end_known) rows = env_of rows.
Proof. intro rows. unfold text_env, env_of. assert (P : d_params (fst end_known) = []) by (vm_compute; reflexivity). rewrite P. reflexivity. Qed.
Lemma end_rows : rows_for 2 (mix_partial ++ mix_more).
Proof.
  destruct (mix_trace _ (or_intror eq_refl)) as (_ & _ & _ & R & _). split; [exact R|]. repeat constructor.
Qed.
Lemma end_pact_complete : complete 2 (env_of (mix_partial ++ mix_more)) pact (q 100) 0 0.
Proof.
  constructor.
  - apply mix_trace. auto.
  - exact pact_frag.
  - qdec.
  - qdec.
  - exact pact_covers.
  - qdec.
  - exact pact_within.
  - qdec.
  - exact pact_regular.
  - cbn [uncut pact x_plus_y y_over_x]. repeat split; qdec.
Qed.
Lemma end_mix_early : early 2 (env_of mix_partial) (env_of (mix_partial ++ mix_more)) mix (q 100) (q 1) 0 0.
Proof.
  constructor.
  - constructor.
    + apply mix_trace. auto.
    + apply (mix_frag (mix_partial ++ mix_more)).
    + qdec.
    + qdec.
    + cbn [covers mix x_plus_y y_over_x]. repeat split; qdec.
    + qdec.
    + destruct (mix_parts _ (or_intror eq_refl)). cbn [within mix]. auto.
    + qdec.
    + apply mix_regular. auto.
    + apply mix_uncut. auto.
  - repeat split. exists mix_more. reflexivity.
  - discriminate.
  - apply mix_frag.
  - cbn [started mix x_plus_y y_over_x]. repeat split; qdec.
  - apply mix_regular. auto.
  - apply mix_uncut. auto.
  - apply mix_grid. auto.
Qed.
