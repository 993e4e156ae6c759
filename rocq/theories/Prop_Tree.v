(** Properties of evaluations for every number type: C26, C30, C31. *)
From Coq Require Import List String QArith Qcanon.
From Verif Require Import Num Base Signal Robust Transducer Spec StlSpec SignalClaims TreeProof.
Import ListNotations.
Local Open Scope string_scope.

(** C26.  [history t t'] : the object [t] becomes [t'] by any number of
    evaluations, set_param calls with a parameter name, and clonings. *)
Theorem C26_repeatable : forall (T : Type) (N : Num T) (E : env T) t t' s e, history t t' ->
  numbers (evaluate E t' s e) = numbers (evaluate E t s e).
Proof. exact @history_repeatable. Qed.
Print Assumptions C26_repeatable.

(** Whatever signals, horizons, cursors and parameter values are left in the object
    (for instance by an evaluation that raised): only the formula it stands for matters. *)
Theorem C26_only_the_formula : forall (T : Type) (N : Num T) (E : env T) t t' s e, skel t = skel t' ->
  numbers (evaluate E t s e) = numbers (evaluate E t' s e).
Proof. exact @evaluate_skel. Qed.
Print Assumptions C26_only_the_formula.

(** alw_[0,p] (x > c and not ev_[1,2] y + 1 < x) *)
Definition ex_formula : fml Qc :=
  FAlw (mkI (mkB (q 0) None) (mkB (q 0) (Some "p")))
    (FAnd (FAtom (FSig "x" 1) GREATERTHAN (FConst (Some "c") (q 0)))
          (FNot (FEv (mkI (mkB (q 1) None) (mkB (q 2) None))
                     (FAtom (FPlus (FSig "y" 2) (FConst None (q 1))) LESSTHAN (FSig "x" 1))))).
Definition ex_data : list (list Qc) :=
  [[q 0; q 1; q 5]; [q 1; q 3; q 4]; [q 2; q 0; q 2]; [q 4; q 2; q (-3)]; [q 7; q 1; q 1]].
Definition ex_env : env Qc := mkEnv SPACE LINEAR (q 10000) ex_data [("p", q 3); ("c", q (-2))].
Definition ex_env2 : env Qc := mkEnv SPACE PREVIOUS (q 100) (firstn 3 ex_data) [("p", q 1)].

Example C26_case : exists a b c d t1 t2,
  evaluate ex_env2 (build ex_formula) (q 0) (q 0) = Ok (a, t1) /\
  evaluate ex_env t1 (q 1) (q 1) = Ok (b, c, d, t2) /\
  history (build ex_formula) t2 /\ t2 <> build ex_formula.
Proof.
  destruct (evaluate ex_env2 (build ex_formula) (q 0) (q 0)) as [[[[a1 a2] a3] t1]| | | |] eqn:H1; try (vm_compute in H1; discriminate H1).
  destruct (evaluate ex_env t1 (q 1) (q 1)) as [[[[b1 b2] b3] t2]| | | |] eqn:H2.
  2-5: exfalso; vm_compute in H1; injection H1; intros; subst t1; vm_compute in H2; discriminate H2.
  exists (a1, a2, a3), b1, b2, b3, t1, t2. split; [reflexivity|]. split; [exact H2|]. split.
  - eapply h_step; [eapply step_eval; exact H1|]. eapply h_step; [eapply step_eval; exact H2|]. apply h_refl.
  - intros F. apply horizons_evaluate in H2. rewrite F in H2. vm_compute in H2.
    vm_compute in H1. injection H1; intros; subst t1. vm_compute in H2. discriminate H2.
Qed.

(** C30.  [t] is any object for the formula [f]; [subst] replaces every declared
    parameter, in atoms and in intervals, by its current value. *)
Theorem C30_parameters_are_constants : forall (T : Type) (N : Num T) (E : env T) f t s e, skel t = skel (build f) ->
  numbers (evaluate E t s e) =
  numbers (evaluate E (build (subst (fun k => lookup k (e_params E)) f)) s e).
Proof. exact @params_are_constants. Qed.
Print Assumptions C30_parameters_are_constants.

(** The formula above with p = 3 and c = -2. *)
Example C30_case : subst (fun k => lookup k (e_params ex_env)) ex_formula =
  FAlw (mkI (mkB (q 0) None) (mkB (q 3) None))
    (FAnd (FAtom (FSig "x" 1) GREATERTHAN (FConst None (q (-2))))
          (FNot (FEv (mkI (mkB (q 1) None) (mkB (q 2) None))
                     (FAtom (FPlus (FSig "y" 2) (FConst None (q 1))) LESSTHAN (FSig "x" 1)))))
  /\ exists a b c, numbers (evaluate ex_env (build ex_formula) (q 0) (q 0)) = Ok (a, b, c).
Proof. split; [reflexivity|]. do 3 eexists. vm_compute. reflexivity. Qed.

(** C31.  The horizons of all occurrences, before and after an evaluation. *)
Theorem C31_horizons : forall E (t : tree Qc) s e,
  horizons (prepare E t s e) =
    map (fun x => (fst x, (s + fst (snd x), e + snd (snd x)))) (offsets (bound_value E) (skel t)).
Proof. exact horizons_prepare. Qed.
Print Assumptions C31_horizons.

Theorem C31_horizons_kept : forall (T : Type) (N : Num T) E (t : tree T) s e a b c t',
  evaluate E t s e = Ok (a, b, c, t') -> horizons t' = horizons (prepare E t s e).
Proof. exact @horizons_evaluate. Qed.
Print Assumptions C31_horizons_kept.

(** y is needed on [t+1, t+3+2]. *)
Example C31_case : In ([false; true; false; false; false; false], (q 1, q 5)) (offsets (bound_value ex_env) ex_formula).
Proof. vm_compute. do 9 right. left. reflexivity. Qed.
