(** Verdicts and margins: C52, C53.  Classical logic ([classic] of the standard library) is
    used to get a time in a window from a positive supremum. *)
From Coq Require Import List String QArith Qcanon Bool.
From Verif Require Import Num Base Signal QcTac Robust Transducer Spec StlSpec SatSpec SignalClaims TreeProof StlClaims WithinTree Witness UntilTree UntilWitness UntilOnline UntilEarly SatProof SatClaims.
Import ListNotations.
Local Open Scope string_scope.
Local Open Scope Qc_scope.

(** C52.  The formulas and conditions are those of C51 and C22. *)
Theorem C52_verdict_partial : forall w E, usual w E -> forall t f s e m, stands_for t f -> ufrag (bound_value E) w f ->
  0 <= s -> s <= e -> covers (bound_value E) (last_time (e_data E)) f e -> m < e_M E ->
  within (eff E) (e_data E) m f -> 0 <= e_M E -> regular (eff E) (bound_value E) (e_data E) f s e ->
  uncut (bound_value E) (last_time (e_data E)) f s e ->
  exists v, numbers (evaluate E t s e) = Ok (v, v, v) /\
    forall weak, (0 < v -> holds weak (eff E) (bound_value E) (e_data E) f s) /\
      (v < 0 -> ~ holds weak (eff E) (bound_value E) (e_data E) f s).
Proof. exact verdict. Qed.
Print Assumptions C52_verdict_partial.

Example C52_case : exists E f, usual 2 E /\ ufrag (bound_value E) 2 f /\ covers (bound_value E) (last_time (e_data E)) f 0 /\
  q 100 < e_M E /\ within (eff E) (e_data E) (q 100) f /\ regular (eff E) (bound_value E) (e_data E) f 0 0 /\
  uncut (bound_value E) (last_time (e_data E)) f 0 0 /\
  numbers (evaluate E (build f) 0 0) = Ok (Q2Qc (13 # 4), Q2Qc (13 # 4), Q2Qc (13 # 4)).
Proof.
  exists (env_of pact_data), pact. split; [apply mix_trace; auto|]. split; [exact pact_frag|]. split; [exact pact_covers|].
  split; [qdec|]. split; [exact pact_within|]. split; [exact pact_regular|]. split; [cbn [uncut pact x_plus_y y_over_x]; auto|].
  exact pact_numbers.
Qed.

(** On data that stops early the sign of a bound is a verdict on every continuation.  The
    conditions are those of C23. *)
Theorem C52_online_partial : forall w E E', usual w E' -> e_data E <> [] -> extends E E' ->
  forall t f d s e r lo up, stands_for t f -> afrag (bound_value E) w f -> 0 <= s -> s <= e ->
  started (bound_value E) (last_time (e_data E)) f s -> within (eff E) (e_data E') (e_M E) f -> 0 <= e_M E ->
  regular (eff E) (bound_value E) (e_data E) f s e -> uncut (bound_value E) (last_time (e_data E)) f s e ->
  grid_ok d f s e E -> covers (bound_value E) (last_time (e_data E')) f e -> regular (eff E) (bound_value E) (e_data E') f s e ->
  numbers (evaluate E t s e) = Ok (r, lo, up) ->
  forall weak, (0 < lo -> holds weak (eff E) (bound_value E) (e_data E') f s) /\
    (up < 0 -> ~ holds weak (eff E) (bound_value E) (e_data E') f s).
Proof. exact online_verdict. Qed.
Print Assumptions C52_online_partial.

(** Decided before the data covers the horizon: the upper bound is -2. *)
Example C52_online_case : exists E E' f, usual 2 E' /\ e_data E <> [] /\ extends E E' /\ afrag (bound_value E) 2 f /\
  started (bound_value E) (last_time (e_data E)) f 0 /\ within (eff E) (e_data E') (e_M E) f /\
  regular (eff E) (bound_value E) (e_data E) f 0 0 /\ uncut (bound_value E) (last_time (e_data E)) f 0 0 /\
  grid_ok (q 1) f 0 0 E /\ covers (bound_value E) (last_time (e_data E')) f 0 /\
  regular (eff E) (bound_value E) (e_data E') f 0 0 /\
  ~ covers (bound_value E) (last_time (e_data E)) f 0 /\
  numbers (evaluate E (build f) 0 0) = Ok (Q2Qc (-28 # 9), Q2Qc (-28 # 9), q (-2)).
Proof.
  exists (env_of mix_partial), (env_of (mix_partial ++ mix_more)), mix.
  split; [apply mix_trace; auto|]. split; [discriminate|].
  split; [do 4 (split; [reflexivity|]); exists mix_more; reflexivity|]. split; [apply mix_frag|].
  split; [split; vm_compute; discriminate|]. split; [apply (mix_within (mix_partial ++ mix_more)); auto|].
  split; [apply mix_regular; auto|]. split; [apply mix_uncut; auto|]. split; [apply mix_grid; auto|].
  split; [split; vm_compute; discriminate|]. split; [apply (mix_regular (mix_partial ++ mix_more)); auto|].
  split; [intros [_ C]; apply C; reflexivity|].
  vm_compute; reflexivity.
Qed.

(** The same with until, on the side proved in C23. *)
Theorem C52_online_until_partial : forall w E E', usual w E' -> e_data E <> [] -> extends E E' ->
  forall t f d m s e r lo up b, stands_for t f -> sided (bound_value E) w b f -> 0 <= s -> s <= e ->
  started (bound_value E) (last_time (e_data E)) f s -> m < e_M E -> within (eff E) (e_data E') m f -> 0 <= e_M E ->
  regular (eff E) (bound_value E) (e_data E) f s e -> uncut (bound_value E) (last_time (e_data E)) f s e ->
  grid_ok d f s e E -> begun (bound_value E) (last_time (e_data E)) b f s e ->
  covers (bound_value E) (last_time (e_data E')) f e -> regular (eff E) (bound_value E) (e_data E') f s e ->
  numbers (evaluate E t s e) = Ok (r, lo, up) ->
  forall weak, if b then up < 0 -> ~ holds weak (eff E) (bound_value E) (e_data E') f s
    else 0 < lo -> holds weak (eff E) (bound_value E) (e_data E') f s.
Proof. exact online_until_verdict. Qed.
Print Assumptions C52_online_until_partial.

(** ((x + y > 1 or 2 y > x) until_[0,4] 2 y > x) and not alw_[0,2] 2 y > x holds, whatever
    comes after time 3. *)
Example C52_online_until_case : exists E E' f, usual 2 E' /\ e_data E <> [] /\ extends E E' /\ sided (bound_value E) 2 false f /\
  started (bound_value E) (last_time (e_data E)) f 0 /\ q 100 < e_M E /\ within (eff E) (e_data E') (q 100) f /\
  regular (eff E) (bound_value E) (e_data E) f 0 0 /\ uncut (bound_value E) (last_time (e_data E)) f 0 0 /\
  grid_ok (q 1) f 0 0 E /\ begun (bound_value E) (last_time (e_data E)) false f 0 0 /\
  covers (bound_value E) (last_time (e_data E')) f 0 /\ regular (eff E) (bound_value E) (e_data E') f 0 0 /\
  ~ covers (bound_value E) (last_time (e_data E)) f 0 /\
  numbers (evaluate E (build f) 0 0) = Ok (q 5, q 5, q 5).
Proof.
  exists (env_of mix_partial), (env_of pact_data), keen. split; [apply mix_trace; auto|]. split; [discriminate|].
  split; [do 4 (split; [reflexivity|]); exists mix_more; reflexivity|]. split; [exact keen_sided|].
  split; [cbn [started keen x_plus_y y_over_x]; repeat split; qdec|]. split; [qdec|]. split; [exact keen_within|].
  split; [exact (keen_regular _ (or_introl eq_refl))|]. split; [cbn [uncut keen x_plus_y y_over_x]; repeat split|]. split; [exact keen_grid|].
  split; [exact keen_begun|]. split; [cbn [covers keen x_plus_y y_over_x]; repeat split; qdec|].
  split; [exact (keen_regular _ (or_intror eq_refl))|].
  split; [cbn [covers keen x_plus_y y_over_x]; intros (((H & _) & _) & _); apply H; reflexivity|]. vm_compute. reflexivity.
Qed.

(** The semantics itself, for all formulas. *)
Theorem C52_semantics : forall weak cst val data, rising (column data 0) -> forall f t v, rob cst val data f t v ->
  (0 < v -> holds weak cst val data f t) /\ (v < 0 -> ~ holds weak cst val data f t).
Proof. exact sign. Qed.
Print Assumptions C52_semantics.

(** Until below always: all three numbers are negative, but the formula holds. *)
Theorem C52_refuted : exists E f, usual 1 E /\ covers (bound_value E) (last_time (e_data E)) f 0 /\
  within (eff E) (e_data E) (q 100) f /\ q 100 < e_M E /\ regular (eff E) (bound_value E) (e_data E) f 0 0 /\
  exists r lo up, numbers (evaluate E (build f) 0 0) = Ok (r, lo, up) /\ r < 0 /\ up < 0 /\
    holds false (eff E) (bound_value E) (e_data E) f 0.
Proof. exact sated_refuted. Qed.
Print Assumptions C52_refuted.

(** C53.  [gain]: the sum of the factors of the signals in a comparison, the largest one in
    a formula.  The other trace need not meet any condition. *)
Theorem C53_margin_partial : forall w E, usual w E -> forall t f s e m, stands_for t f -> ufrag (bound_value E) w f ->
  0 <= s -> s <= e -> covers (bound_value E) (last_time (e_data E)) f e -> m < e_M E ->
  within (eff E) (e_data E) m f -> 0 <= e_M E -> regular (eff E) (bound_value E) (e_data E) f s e ->
  uncut (bound_value E) (last_time (e_data E)) f s e ->
  exists v, numbers (evaluate E t s e) = Ok (v, v, v) /\
    forall d data' weak, 0 <= d -> near d (e_data E) data' ->
      (gain (eff E) f * d < v -> holds weak (eff E) (bound_value E) data' f s) /\
      (v < - (gain (eff E) f * d) -> ~ holds weak (eff E) (bound_value E) data' f s).
Proof. exact stays. Qed.
Print Assumptions C53_margin_partial.

Example C53_margin_case : exists E f d data', usual 2 E /\ ufrag (bound_value E) 2 f /\ covers (bound_value E) (last_time (e_data E)) f 0 /\
  q 100 < e_M E /\ within (eff E) (e_data E) (q 100) f /\ regular (eff E) (bound_value E) (e_data E) f 0 0 /\
  uncut (bound_value E) (last_time (e_data E)) f 0 0 /\ 0 < d /\ near d (e_data E) data' /\
  exists v, numbers (evaluate E (build f) 0 0) = Ok (v, v, v) /\ gain (eff E) f * d < v.
Proof.
  exists (env_of pact_data), pact, (q 1), pact_moved. split; [apply mix_trace; auto|]. split; [exact pact_frag|]. split; [exact pact_covers|].
  split; [qdec|]. split; [exact pact_within|]. split; [exact pact_regular|]. split; [cbn [uncut pact x_plus_y y_over_x]; auto|].
  split; [qdec|]. split; [exact pact_near|]. exists (Q2Qc (13 # 4)). split; [exact pact_numbers|exact pact_gain].
Qed.

(** Two evaluations. *)
Theorem C53_stable_partial : forall w E E' d, usual w E -> usual w E' -> e_M E' = e_M E -> e_params E' = e_params E ->
  0 <= d -> near d (e_data E) (e_data E') ->
  forall t t' f s e m, stands_for t f -> stands_for t' f -> ufrag (bound_value E) w f ->
  0 <= s -> s <= e -> covers (bound_value E) (last_time (e_data E)) f e -> m < e_M E ->
  within (eff E) (e_data E) m f -> within (eff E) (e_data E') m f -> 0 <= e_M E ->
  regular (eff E) (bound_value E) (e_data E) f s e -> regular (eff E) (bound_value E) (e_data E') f s e ->
  uncut (bound_value E) (last_time (e_data E)) f s e ->
  exists v v', numbers (evaluate E t s e) = Ok (v, v, v) /\ numbers (evaluate E' t' s e) = Ok (v', v', v') /\
    v - v' <= gain (eff E) f * d /\ v' - v <= gain (eff E) f * d.
Proof. exact margin. Qed.
Print Assumptions C53_stable_partial.

Example C53_stable_case : exists E E' f d v v', usual 1 E /\ usual 1 E' /\ e_M E' = e_M E /\ e_params E' = e_params E /\ 0 <= d /\
  near d (e_data E) (e_data E') /\ ufrag (bound_value E) 1 f /\ covers (bound_value E) (last_time (e_data E)) f 0 /\ q 100 < e_M E /\
  within (eff E) (e_data E) (q 100) f /\ within (eff E) (e_data E') (q 100) f /\
  regular (eff E) (bound_value E) (e_data E) f 0 0 /\ regular (eff E) (bound_value E) (e_data E') f 0 0 /\
  uncut (bound_value E) (last_time (e_data E)) f 0 0 /\
  numbers (evaluate E (build f) 0 0) = Ok (v, v, v) /\ numbers (evaluate E' (build f) 0 0) = Ok (v', v', v') /\
  gain (eff E) f * d = v - v'.
Proof. exact vee_pair. Qed.
