(** The claims about tests. *)
From Coq Require Import List Bool String Ascii ZArith QArith Qcanon Lia.
From Verif Require Import Num Base Signal Robust Transducer TreeProof Driver Tables Parser Decimal ParserTotal Tests TestsProof.
Import ListNotations.
Local Open Scope string_scope.

(** The number a test stands for: the robustness at time 0 of its formula over the data of the driver, with the
    settings and the parameters of the driver, the parameters of the test coming first. *)
Definition test_value {T : Type} {N : Num T} (S : statics T) (d : driver T) (t : stl_test T) (r : T) : Prop :=
  exists low up t', evaluate (mkEnv (d_sem d) (d_ip d) (s_M S) (d_data d) (t_params t ++ d_params d)) (t_formula t) n0 n0 = Ok (r, low, up, t').

Definition qz (z : Z) : Qc := Q2Qc (inject_Z z).
Definition stat0 : statics Qc := mkStat SPACE LINEAR (qz 1000).
Definition three_rows : list (list Qc) := [[qz 0; qz 1]; [qz 1; qz 1]; [qz 2; qz (-5)]].
Definition empty_driver : driver Qc := mkDrv [] [] [] [] SPACE LINEAR.

(** A driver that has parsed a formula, was given data and has evaluated the formula once. *)
Definition used_driver : res (driver Qc) :=
  '(_, d) <- parse decimal (empty_driver, []) "signal x phi := x[t] > 0" ;;
  '(_, d, _) <- dstep stat0 (d_with_data (fst d) three_rows) (DOnlineRob "phi" (qz 0)) ;;
  Ok d.
(** What parsing test t: "e" { u { phi, "p", "n", true } } adds to it. *)
Definition with_phi (d : driver Qc) : bench Qc :=
  match find "phi" (d_formulas d) with
  | Some f => add_new (add_trace_test new_bench "t" "e" (qz 0) false) "u" [] (clone f) "p" "n" true
  | None => new_bench
  end.

Lemma test_wrong : forall show, exists d b r q t e b', used_driver = Ok d /\ b = with_phi d /\ b_queue b = r :: q /\ tt_tests r = [t] /\
  test_value stat0 d t (qz 1) /\ t_err t = true /\ run_tests show stat0 (d_data d) b = Ok (e, b') /\ e = false /\ b_pos b' = 0%Z.
Proof.
  intro show.
  assert (U : exists d, used_driver = Ok d).
  { destruct used_driver as [d| | | |] eqn:E; [eauto|exfalso; vm_compute in E; discriminate E ..]. }
  destruct U as (d & U). exists d. do 6 eexists. split; [exact U|]. split; [reflexivity|].
  vm_compute in U. injection U as <-. split; [vm_compute; reflexivity|]. split; [reflexivity|]. split; [do 3 eexists; vm_compute; reflexivity|].
  split; [reflexivity|]. split; [vm_compute; reflexivity|]. split; reflexivity.
Qed.
