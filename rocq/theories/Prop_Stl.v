(** Properties of evaluations of whole formulas: C20-C25, C33. *)
From Coq Require Import List String QArith Qcanon Bool.
From Verif Require Import Num Base Signal QcTac Robust Transducer Spec StlSpec SignalClaims TreeProof StlClaims WithinTree Witness ExprClaims.
Import ListNotations.
Local Open Scope string_scope.
Local Open Scope Qc_scope.

(** C20.  [usual w E]: SPACE semantics, LINEAR interpolation and data with increasing
    times and at least [w] signals.  The three numbers are the signed difference of the
    interpolated operands. *)
Theorem C20_atom : forall w E t l op r s e, usual w E -> simple_operand w l -> simple_operand w r ->
  stands_for t (FAtom l op r) -> 0 <= s -> s <= e -> s <= last_time (e_data E) ->
  exists v, numbers (evaluate E t s e) = Ok (v, v, v) /\ rob (eff E) (bound_value E) (e_data E) (FAtom l op r) s v.
Proof. exact atom_numbers. Qed.
Print Assumptions C20_atom.

(** The robustness of an atom, spelled out. *)
Theorem C20_atom_value : forall cst val data l op r t v, rob cst val data (FAtom l op r) t v <->
  exists a b, expr cst data l t a /\ expr cst data r t b /\
    v = match op with GREATERTHAN => a - b | LESSTHAN => b - a end.
Proof. exact atom_value. Qed.
Print Assumptions C20_atom_value.

Example C20_case : exists E, usual 2 E /\
  numbers (evaluate E (build (FAtom (FSig "x" 1) LESSTHAN (FSig "y" 2))) (q 2) (q 2)) = Ok (q (-4), q (-4), q (-4)) /\
  q 2 <= last_time (e_data E).
Proof.
  exists (env_of [[q 0; q 1; q 3]; [q 1; q 4; q (-1)]; [q 3; q 2; q (-1)]]).
  split; [|split; [vm_compute; reflexivity|discriminate]].
  split; [reflexivity|]. split; [reflexivity|]. apply trace_check. vm_compute. reflexivity.
Qed.

(** C21.  The data covers the horizon of the formula.  Comparisons are between sums,
    differences and multiples of signals ([afrag]).  Besides, every comparison stays within
    BigM; every timed operator nested in another one has an operand whose signal can be
    restarted, and a comparison with arithmetic is evaluated up to a sample or to the end
    of the data ([regular]).  Without any one of these the claim is false, see below. *)
Theorem C21_exact_partial : forall w E, usual w E -> forall t f s e, stands_for t f ->
  afrag (bound_value E) w f -> 0 <= s -> s <= e -> covers (bound_value E) (last_time (e_data E)) f e ->
  within (eff E) (e_data E) (e_M E) f -> regular (eff E) (bound_value E) (e_data E) f s e ->
  exists v t', compute_rob E (prepare E t s e) = Ok (v, t') /\ rob (eff E) (bound_value E) (e_data E) f s v.
Proof. exact exact_rob. Qed.
Print Assumptions C21_exact_partial.

(** [compute_rob E (prepare E t s e)] is what an evaluation returns first. *)
Theorem C21_first : forall (E : env Qc) t s e r lo up, numbers (evaluate E t s e) = Ok (r, lo, up) ->
  exists t1 t2 t3, compute_rob E (prepare E t s e) = Ok (r, t1) /\ compute_bound E false t1 = Ok (lo, t2) /\
    compute_bound E true t2 = Ok (up, t3).
Proof. exact numbers_ok. Qed.
Print Assumptions C21_first.

Example C21_case : exists E f, usual 2 E /\ afrag (bound_value E) 2 f /\ covers (bound_value E) (last_time (e_data E)) f 0 /\
  within (eff E) (e_data E) (e_M E) f /\ regular (eff E) (bound_value E) (e_data E) f 0 0 /\
  numbers (evaluate E (build f) 0 0) = Ok (Q2Qc (-28 # 9), Q2Qc (-28 # 9), Q2Qc (-28 # 9)).
Proof.
  exists (env_of (mix_partial ++ mix_more)), mix. split; [apply mix_trace; auto|]. split; [apply mix_frag|].
  split; [split; vm_compute; discriminate|]. split; [apply mix_within; auto|]. split; [apply mix_regular; auto|].
  vm_compute. reflexivity.
Qed.

(** The operand of the outer eventually is trimmed within one straight piece; the piece
    loses its slope. *)
Theorem C21_refuted : exists E f, usual 2 E /\ frag (bound_value E) 2 f /\ covers (bound_value E) (last_time (e_data E)) f 0 /\
  within (eff E) (e_data E) (e_M E) f /\
  exists r lo up, numbers (evaluate E (build f) 0 0) = Ok (r, lo, up) /\ ~ rob (eff E) (bound_value E) (e_data E) f 0 r.
Proof. exact ramp_refuted. Qed.
Print Assumptions C21_refuted.

(** Robustness below -BigM is cut off. *)
Theorem C21_refuted_below_BigM : exists E f, usual 1 E /\ frag (bound_value E) 1 f /\
  covers (bound_value E) (last_time (e_data E)) f 0 /\ regular (eff E) (bound_value E) (e_data E) f 0 0 /\
  exists r lo up, numbers (evaluate E (build f) 0 0) = Ok (r, lo, up) /\ ~ rob (eff E) (bound_value E) (e_data E) f 0 r.
Proof. exact low_refuted. Qed.
Print Assumptions C21_refuted_below_BigM.

(** A comparison with arithmetic that is evaluated up to a time between two samples. *)
Theorem C21_refuted_between_samples : exists E f, usual 1 E /\ afrag (bound_value E) 1 f /\
  covers (bound_value E) (last_time (e_data E)) f 0 /\ within (eff E) (e_data E) (e_M E) f /\
  exists r lo up, numbers (evaluate E (build f) 0 0) = Ok (r, lo, up) /\ ~ rob (eff E) (bound_value E) (e_data E) f 0 r.
Proof. exact range_rob. Qed.
Print Assumptions C21_refuted_between_samples.

(** Arithmetic that is not affine: the absolute value of a signal. *)
Theorem C21_refuted_abs : exists E f, usual 1 E /\ no_until (bound_value E) 1 f /\
  covers (bound_value E) (last_time (e_data E)) f 0 /\ within (eff E) (e_data E) (e_M E) f /\
  regular (eff E) (bound_value E) (e_data E) f 0 0 /\
  exists r lo up, numbers (evaluate E (build f) 0 0) = Ok (r, lo, up) /\ ~ rob (eff E) (bound_value E) (e_data E) f 0 r.
Proof. exact between_rob. Qed.
Print Assumptions C21_refuted_abs.

(** C22.  Conditions as for C21, and [uncut]: the evaluation interval of an eventually
    directly over an atom is at most [a + b] long. *)
Theorem C22_collapse_partial : forall w E, usual w E -> forall t f s e, stands_for t f -> afrag (bound_value E) w f ->
  0 <= s -> s <= e -> covers (bound_value E) (last_time (e_data E)) f e ->
  within (eff E) (e_data E) (e_M E) f -> 0 <= e_M E -> regular (eff E) (bound_value E) (e_data E) f s e ->
  uncut (bound_value E) (last_time (e_data E)) f s e ->
  exists v, numbers (evaluate E t s e) = Ok (v, v, v) /\ rob (eff E) (bound_value E) (e_data E) f s v.
Proof. exact collapse. Qed.
Print Assumptions C22_collapse_partial.

Example C22_case : exists E f, usual 2 E /\ afrag (bound_value E) 2 f /\ covers (bound_value E) (last_time (e_data E)) f 0 /\
  within (eff E) (e_data E) (e_M E) f /\ 0 <= e_M E /\ regular (eff E) (bound_value E) (e_data E) f 0 0 /\
  uncut (bound_value E) (last_time (e_data E)) f 0 0.
Proof.
  exists (env_of (mix_partial ++ mix_more)), mix. split; [apply mix_trace; auto|]. split; [apply mix_frag|].
  split; [split; vm_compute; discriminate|]. split; [apply mix_within; auto|]. split; [discriminate|].
  split; [apply mix_regular; auto|]. apply mix_uncut; auto.
Qed.

(** Without [uncut], on complete data within BigM: the three numbers differ and the
    robustness is not in the interval. *)
Theorem C22_refuted : exists E f, usual 1 E /\ frag (bound_value E) 1 f /\ covers (bound_value E) (last_time (e_data E)) f 0 /\
  within (eff E) (e_data E) (e_M E) f /\ regular (eff E) (bound_value E) (e_data E) f 0 0 /\
  exists r lo up, numbers (evaluate E (build f) 0 0) = Ok (r, lo, up) /\ r <> lo.
Proof. exact long_refuted. Qed.
Print Assumptions C22_refuted.

(** C23.  [E'] adds samples to [E]; the robustness of the formula on the completed data is
    in the returned interval.  [started]: the data reaches the start of the horizon;
    [grid_ok]: all times are multiples of a step greater than 1e-14. *)
Theorem C23_future_partial : forall w E E', usual w E' -> e_data E <> [] -> extends E E' ->
  forall t f d s e r lo up, stands_for t f -> afrag (bound_value E) w f -> 0 <= s -> s <= e ->
  started (bound_value E) (last_time (e_data E)) f s -> within (eff E) (e_data E') (e_M E) f -> 0 <= e_M E ->
  regular (eff E) (bound_value E) (e_data E) f s e -> uncut (bound_value E) (last_time (e_data E)) f s e ->
  grid_ok d f s e E -> covers (bound_value E) (last_time (e_data E')) f e ->
  numbers (evaluate E t s e) = Ok (r, lo, up) ->
  forall v, rob (eff E) (bound_value E) (e_data E') f s v -> lo <= v /\ v <= up.
Proof. exact future. Qed.
Print Assumptions C23_future_partial.

Example C23_case : exists E E' f, usual 2 E' /\ e_data E <> [] /\ extends E E' /\ afrag (bound_value E) 2 f /\
  started (bound_value E) (last_time (e_data E)) f 0 /\ within (eff E) (e_data E') (e_M E) f /\
  regular (eff E) (bound_value E) (e_data E) f 0 0 /\ uncut (bound_value E) (last_time (e_data E)) f 0 0 /\
  grid_ok (q 1) f 0 0 E /\ covers (bound_value E) (last_time (e_data E')) f 0 /\
  ~ covers (bound_value E) (last_time (e_data E)) f 0 /\
  numbers (evaluate E (build f) 0 0) = Ok (Q2Qc (-28 # 9), Q2Qc (-28 # 9), q (-2)) /\
  numbers (evaluate E' (build f) 0 0) = Ok (Q2Qc (-28 # 9), Q2Qc (-28 # 9), Q2Qc (-28 # 9)).
Proof.
  exists (env_of mix_partial), (env_of (mix_partial ++ mix_more)), mix.
  split; [apply mix_trace; auto|]. split; [discriminate|].
  split; [do 4 (split; [reflexivity|]); exists mix_more; reflexivity|]. split; [apply mix_frag|].
  split; [split; vm_compute; discriminate|]. split; [apply (mix_within (mix_partial ++ mix_more)); auto|].
  split; [apply mix_regular; auto|]. split; [apply mix_uncut; auto|]. split; [apply mix_grid; auto|].
  split; [split; vm_compute; discriminate|]. split; [intros [_ C]; apply C; reflexivity|].
  split; vm_compute; reflexivity.
Qed.

(** Without [started]: the horizon begins after the last sample. *)
Theorem C23_refuted_before_data : exists E E' f, usual 1 E' /\ e_data E <> [] /\ extends E E' /\ frag (bound_value E) 1 f /\
  within (eff E) (e_data E') (e_M E) f /\ regular (eff E) (bound_value E) (e_data E) f 0 0 /\
  uncut (bound_value E) (last_time (e_data E)) f 0 0 /\ grid_ok (q 1) f 0 0 E /\
  covers (bound_value E) (last_time (e_data E')) f 0 /\
  exists r lo up v, numbers (evaluate E (build f) 0 0) = Ok (r, lo, up) /\
    rob (eff E) (bound_value E) (e_data E') f 0 v /\ up < v.
Proof. exact late_refuted. Qed.
Print Assumptions C23_refuted_before_data.

(** Without [uncut], even though no data is missing. *)
Theorem C23_refuted_cut : exists E f, usual 1 E /\ frag (bound_value E) 1 f /\
  started (bound_value E) (last_time (e_data E)) f 0 /\ within (eff E) (e_data E) (e_M E) f /\
  regular (eff E) (bound_value E) (e_data E) f 0 0 /\ grid_ok (q 1) f 0 0 E /\
  covers (bound_value E) (last_time (e_data E)) f 0 /\
  exists r lo up v, numbers (evaluate E (build f) 0 0) = Ok (r, lo, up) /\
    rob (eff E) (bound_value E) (e_data E) f 0 v /\ v < lo.
Proof. exact cut_refuted. Qed.
Print Assumptions C23_refuted_cut.

(** Without [grid_ok]: the data stops less than 1e-14 before the end of the horizon. *)
Theorem C23_refuted_close : exists E E' f, usual 1 E' /\ e_data E <> [] /\ extends E E' /\ frag (bound_value E) 1 f /\
  started (bound_value E) (last_time (e_data E)) f 0 /\ within (eff E) (e_data E') (e_M E) f /\
  regular (eff E) (bound_value E) (e_data E) f 0 0 /\ uncut (bound_value E) (last_time (e_data E)) f 0 0 /\
  covers (bound_value E) (last_time (e_data E')) f 0 /\
  exists r lo up v, numbers (evaluate E (build f) 0 0) = Ok (r, lo, up) /\
    rob (eff E) (bound_value E) (e_data E') f 0 v /\ up < v.
Proof. exact close_refuted. Qed.
Print Assumptions C23_refuted_close.

(** C24, proved for data that covers the horizon. *)
Theorem C24_between_partial : forall w E t f s e, usual w E -> stands_for t f -> afrag (bound_value E) w f -> 0 <= s -> s <= e ->
  covers (bound_value E) (last_time (e_data E)) f e -> within (eff E) (e_data E) (e_M E) f -> 0 <= e_M E ->
  regular (eff E) (bound_value E) (e_data E) f s e -> uncut (bound_value E) (last_time (e_data E)) f s e ->
  exists r lo up, numbers (evaluate E t s e) = Ok (r, lo, up) /\ lo <= r /\ r <= up.
Proof. exact between. Qed.
Print Assumptions C24_between_partial.

Example C24_case : exists E f, usual 2 E /\ afrag (bound_value E) 2 f /\ covers (bound_value E) (last_time (e_data E)) f 0 /\
  within (eff E) (e_data E) (e_M E) f /\ 0 <= e_M E /\ regular (eff E) (bound_value E) (e_data E) f 0 0 /\
  uncut (bound_value E) (last_time (e_data E)) f 0 0.
Proof. exact C22_case. Qed.

(** The estimate above the upper bound; and below the lower bound on complete data. *)
Theorem C24_refuted : exists E f, usual 1 E /\ frag (bound_value E) 1 f /\ within (eff E) (e_data E) (e_M E) f /\
  exists r lo up, numbers (evaluate E (build f) 0 0) = Ok (r, lo, up) /\ up < r.
Proof. exact late_order_refuted. Qed.
Print Assumptions C24_refuted.

Theorem C24_refuted_complete : exists E f, usual 1 E /\ frag (bound_value E) 1 f /\ within (eff E) (e_data E) (e_M E) f /\
  covers (bound_value E) (last_time (e_data E)) f 0 /\
  exists r lo up, numbers (evaluate E (build f) 0 0) = Ok (r, lo, up) /\ r < lo.
Proof. exact long_order_refuted. Qed.
Print Assumptions C24_refuted_complete.

(** C25.  [E'] adds samples to [E]. *)
Theorem C25_refine_partial : forall w E E', usual w E' -> e_data E <> [] -> extends E E' ->
  forall t t' f d d' s e r lo up r' lo' up', stands_for t f -> stands_for t' f -> afrag (bound_value E) w f -> 0 <= s -> s <= e ->
  started (bound_value E) (last_time (e_data E)) f s -> within (eff E) (e_data E') (e_M E) f -> 0 <= e_M E ->
  regular (eff E) (bound_value E) (e_data E) f s e -> uncut (bound_value E) (last_time (e_data E)) f s e ->
  grid_ok d f s e E ->
  regular (eff E) (bound_value E) (e_data E') f s e -> uncut (bound_value E) (last_time (e_data E')) f s e ->
  grid_ok d' f s e E' ->
  numbers (evaluate E t s e) = Ok (r, lo, up) -> numbers (evaluate E' t' s e) = Ok (r', lo', up') ->
  lo <= lo' /\ up' <= up.
Proof. exact refine. Qed.
Print Assumptions C25_refine_partial.

Example C25_case : exists E E' f, usual 2 E' /\ e_data E <> [] /\ extends E E' /\ afrag (bound_value E) 2 f /\
  started (bound_value E) (last_time (e_data E)) f 0 /\ within (eff E) (e_data E') (e_M E) f /\
  regular (eff E) (bound_value E) (e_data E) f 0 0 /\ uncut (bound_value E) (last_time (e_data E)) f 0 0 /\
  grid_ok (q 1) f 0 0 E /\ regular (eff E) (bound_value E) (e_data E') f 0 0 /\
  uncut (bound_value E) (last_time (e_data E')) f 0 0 /\ grid_ok (q 1) f 0 0 E'.
Proof.
  exists (env_of mix_partial), (env_of (mix_partial ++ mix_more)), mix.
  split; [apply mix_trace; auto|]. split; [discriminate|].
  split; [do 4 (split; [reflexivity|]); exists mix_more; reflexivity|]. split; [apply mix_frag|].
  split; [split; vm_compute; discriminate|]. split; [apply (mix_within (mix_partial ++ mix_more)); auto|].
  split; [apply mix_regular; auto|]. split; [apply mix_uncut; auto|]. split; [apply mix_grid; auto|].
  split; [apply (mix_regular (mix_partial ++ mix_more)); auto|]. split; [apply (mix_uncut (mix_partial ++ mix_more)); auto|].
  apply mix_grid; auto.
Qed.

Theorem C25_refuted : exists E E' f, usual 1 E' /\ e_data E <> [] /\ extends E E' /\ frag (bound_value E) 1 f /\
  within (eff E) (e_data E') (e_M E) f /\
  exists r lo up r' lo' up', numbers (evaluate E (build f) 0 0) = Ok (r, lo, up) /\
    numbers (evaluate E' (build f) 0 0) = Ok (r', lo', up') /\ up < up'.
Proof. exact late_refine_refuted. Qed.
Print Assumptions C25_refuted.

(** C33.  The two bounds, for all data and all times: nothing is asked of where the data
    starts or ends. *)
Theorem C33_bounds_partial : forall w E t f s e, usual w E -> stands_for t f -> frag (bound_value E) w f -> 0 <= e -> s <= e ->
  within (eff E) (e_data E) (e_M E) f -> 0 <= e_M E ->
  exists r lo up, numbers (evaluate E t s e) = Ok (r, lo, up) /\
    (- e_M E <= lo /\ lo <= e_M E) /\ (- e_M E <= up /\ up <= e_M E).
Proof. exact bounds_in. Qed.
Print Assumptions C33_bounds_partial.

(** Data that stops early and reaches BigM: the numbers are 14000, 2000 and 10000. *)
Example C33_case : exists E f, usual 1 E /\ frag (bound_value E) 1 f /\ within (eff E) (e_data E) (e_M E) f /\ 0 <= e_M E.
Proof.
  exists (env_of steep_data), steep. split; [apply steep_usual|]. split; [apply steep_frag|]. split; [apply steep_within|]. qdec.
Qed.

(** The estimate can leave the range on data that does not cover the horizon. *)
Theorem C33_refuted : exists E f, usual 1 E /\ frag (bound_value E) 1 f /\ within (eff E) (e_data E) (e_M E) f /\ 0 <= e_M E /\
  exists r lo up, numbers (evaluate E (build f) 0 0) = Ok (r, lo, up) /\ e_M E < r.
Proof. exact steep_refuted. Qed.
Print Assumptions C33_refuted.

(** All three numbers if it covers it. *)
Theorem C33_within_partial : forall w E t f s e, usual w E -> stands_for t f -> afrag (bound_value E) w f -> 0 <= s -> s <= e ->
  covers (bound_value E) (last_time (e_data E)) f e -> within (eff E) (e_data E) (e_M E) f -> 0 <= e_M E ->
  regular (eff E) (bound_value E) (e_data E) f s e -> uncut (bound_value E) (last_time (e_data E)) f s e ->
  exists r lo up, numbers (evaluate E t s e) = Ok (r, lo, up) /\
    (- e_M E <= r /\ r <= e_M E) /\ (- e_M E <= lo /\ lo <= e_M E) /\ (- e_M E <= up /\ up <= e_M E).
Proof. exact all_within. Qed.
Print Assumptions C33_within_partial.

Example C33_within_case : exists E f, usual 2 E /\ afrag (bound_value E) 2 f /\ covers (bound_value E) (last_time (e_data E)) f 0 /\
  within (eff E) (e_data E) (e_M E) f /\ 0 <= e_M E /\ regular (eff E) (bound_value E) (e_data E) f 0 0 /\
  uncut (bound_value E) (last_time (e_data E)) f 0 0.
Proof. exact C22_case. Qed.
