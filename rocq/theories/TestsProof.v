(** Running tests: what is reported, and when nothing can be. *)
From Coq Require Import List Bool String Ascii ZArith QArith Qcanon Lia.
From Verif Require Import Num Base Signal Robust Transducer TreeProof Driver Tests.
Import ListNotations.
Local Open Scope string_scope.

Section Spec.
Context {T : Type} {N : Num T}.
Variable show : T -> string.

(** ** What a run of tests is to report *)
Definition positive (r : T) : bool := nltb n0 r.
Definition log_line (p : stl_test T * T) : string := t_id (fst p) ++ ": " ++ show (snd p) ++ newline.
Definition message (p : stl_test T * T) : string := if positive (snd p) then t_pos (fst p) else t_neg (fst p).
Definition report_lines (p : stl_test T * T) : string :=
  indent ++ t_id (fst p) ++ ": " ++ show (snd p) ++ (if positive (snd p) then "  --> PB" else "  --> OK") ++ newline ++
  (if String.eqb (message p) "" then "" else indent ++ message p ++ newline).
Definition fails (p : stl_test T * T) : bool := t_err (fst p) && positive (snd p).
Definition counts (l : list (stl_test T * T)) : Z := Z.of_nat (List.length (filter (fun p => positive (snd p)) l)).
Definition lines (f : stl_test T * T -> string) (l : list (stl_test T * T)) : string := concat "" (map f l).
End Spec.

Section Run.
Context {T : Type} {N : Num T}.
Variable show : T -> string.

Lemma app_assoc_s : forall a b c : string, (a ++ b) ++ c = a ++ b ++ c.
Proof. induction a as [|x a IH]; intros b c; [reflexivity|]. cbn. rewrite IH. reflexivity. Qed.
Lemma app_nil_s : forall a : string, a ++ "" = a.
Proof. induction a as [|x a IH]; [reflexivity|]. cbn. rewrite IH. reflexivity. Qed.
Lemma concat_cons : forall a l, concat "" (a :: l) = a ++ concat "" l.
Proof. intros a [|b l]; cbn; [rewrite app_nil_s; reflexivity|reflexivity]. Qed.

Lemma run_loop_spec : forall S data (l : list (stl_test T * T)) report log pos error,
  Forall (fun p => exists t', run_formula S data (t_formula (fst p)) = Ok (snd p, t')) l ->
  run_loop show S data (map fst l) report log pos error =
  Ok (report ++ lines (report_lines show) l, log ++ lines (log_line show) l, (pos + counts l)%Z, error || existsb fails l).
Proof.
  intros St data l. induction l as [|[t r] l IH]; intros report log pos error H.
  - cbn [run_loop map]. unfold lines, counts. cbn [map concat filter List.length existsb Z.of_nat]. rewrite !app_nil_s, Z.add_0_r, orb_false_r. reflexivity.
  - inversion H as [|? ? (t' & E) H']; subst. cbn [fst snd] in E. cbn [map fst run_loop]. rewrite E. cbn [bind].
    unfold lines, counts. cbn [map]. rewrite !concat_cons. cbn [filter snd existsb]. unfold fails at 1. cbn [fst snd].
    unfold report_lines at 1, log_line at 1, message. cbn [fst snd]. change (nltb n0 r) with (positive r).
    destruct (positive r).
    + rewrite IH by exact H'. unfold lines, counts. rewrite !app_assoc_s. cbn [List.length andb].
      replace (if t_err t then true else error) with (error || t_err t) by (destruct (t_err t), error; reflexivity).
      rewrite andb_true_r, orb_assoc.
      replace (pos + 1 + Z.of_nat (List.length (filter (fun p => positive (snd p)) l)))%Z
        with (pos + Z.of_nat (S (List.length (filter (fun p => positive (snd p)) l))))%Z by lia. reflexivity.
    + rewrite IH by exact H'. unfold lines, counts. rewrite !app_assoc_s, andb_false_r. reflexivity.
Qed.

Theorem run_tests_reports : forall S data b r q (robs : list T), b_queue b = r :: q ->
  Forall2 (fun t x => exists t', run_formula S data (t_formula t) = Ok (x, t')) (tt_tests r) robs ->
  let l := combine (tt_tests r) robs in
  run_tests show S data b =
  Ok (existsb fails l,
      mkBench (b_tests b) q (b_report b ++ "stl_test " ++ tt_id r ++ newline ++ lines (report_lines show) l ++ newline)
              (b_log b ++ lines (log_line show) l) (b_pos b + counts l)%Z (b_total b) (existsb fails l)).
Proof.
  intros S data b r q robs Q F. cbv zeta. unfold run_tests. rewrite Q.
  assert (M : tt_tests r = map fst (combine (tt_tests r) robs)) by (clear - F; induction F; cbn; [reflexivity|f_equal; exact IHF]).
  assert (A : Forall (fun p => exists t', run_formula S data (t_formula (fst p)) = Ok (snd p, t')) (combine (tt_tests r) robs)).
  { clear - F. induction F; cbn [combine]; constructor; auto. }
  rewrite M at 1. rewrite (run_loop_spec _ _ _ _ _ _ _ A). cbn [bind]. rewrite !app_assoc_s. reflexivity.
Qed.

(** ** A formula that was parsed and never evaluated cannot be run *)

(** The bounds of the formula on the way to its leftmost leaf are not negative. *)
Fixpoint forward (f : fml T) (e : T) : Prop :=
  match f with
  | FSig _ c => nleb n0 e = true /\ c <> 0%nat
  | FConst _ _ => nleb n0 e = true
  | FAbs c | FNot c => forward c e
  | FPlus l _ | FMinus l _ | FMult l _ | FAtom l _ _ | FAnd l _ | FOr l _ | FImp l _ => forward l e
  | FEv i c | FAlw i c => forward c (nadd e (bnum (iend i)))
  | FUntil l i _ => forward l (nadd e (bnum (iend i)))
  end.

Lemma run_fresh : forall E f s e, e_params E = [] -> forward f e -> compute_rob E (set_horizon E (build f) s e) = UB.
Proof.
  intros E f s e P. revert s e.
  assert (B : forall b, bound_value E b = bnum b).
  { intro b. unfold bound_value, get_param. rewrite P. destruct (bstr b); reflexivity. }
  induction f; intros s e F; cbn [build set_horizon compute_rob forward] in *; rewrite ?B.
  all: try (match goal with IH : forall s e, forward ?g e -> _ , F : forward ?g _ |- _ => rewrite IH by exact F; reflexivity end).
  - destruct F as [F C]. unfold compute_signal. destruct col as [|col]; [contradiction|]. cbn [with_horizon new_node end_time]. rewrite F. reflexivity.
  - unfold compute_constant. cbn [with_horizon new_node end_time]. rewrite F. reflexivity.
Qed.
Lemma clone_build : forall f : fml T, clone (build f) = build f.
Proof. induction f; cbn; congruence. Qed.

Theorem new_test_undefined : forall S data b id env time visu name local f pos neg err, b_queue b = [] -> forward f n0 ->
  run_tests show S data (add_new (add_trace_test b id env time visu) name local (build f) pos neg err) = UB.
Proof.
  intros S data b id env time visu name local f pos neg err Q F. unfold add_new, add_trace_test. cbn [b_queue]. rewrite Q. cbn [app push].
  unfold run_tests. cbn [b_queue tt_tests app run_loop t_formula]. rewrite clone_build. unfold run_formula.
  assert (NH : node (build f) = new_node) by (destruct f; reflexivity). rewrite NH. cbn [new_node start_time end_time].
  rewrite run_fresh; [reflexivity|reflexivity|exact F].
Qed.
Theorem new_formula_undefined : forall S data k f m, forward f n0 -> dump S data ((k, build f) :: m) = UB.
Proof.
  intros S data k f m F. cbn [dump]. unfold run_formula.
  assert (NH : node (build f) = new_node) by (destruct f; reflexivity). rewrite NH. cbn [new_node start_time end_time].
  rewrite run_fresh; [reflexivity|reflexivity|exact F].
Qed.
End Run.
