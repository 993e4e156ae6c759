(** Properties of evaluations of formulas with until: C51, C23-C25, C33. *)
From Coq Require Import List String QArith Qcanon Bool.
From Verif Require Import Num Base Signal QcTac Robust Transducer Spec StlSpec SignalClaims TreeProof StlClaims WithinTree Witness UntilTree UntilWitness UntilOnline UntilEarly.
Import ListNotations.
Local Open Scope string_scope.
Local Open Scope Qc_scope.

(** C51.  Boolean combinations of formulas without until as in C21 and of untils, with a
    window of positive length, between formulas as in C21 ([ufrag]).  Missing: until below
    eventually, always or until, and windows that are one instant; all of them are refuted
    below (eventually is the negation of always). *)
Theorem C51_until_partial : forall w E, usual w E -> forall t f s e, stands_for t f -> ufrag (bound_value E) w f ->
  0 <= s -> s <= e -> covers (bound_value E) (last_time (e_data E)) f e ->
  within (eff E) (e_data E) (e_M E) f -> regular (eff E) (bound_value E) (e_data E) f s e ->
  exists v t', compute_rob E (prepare E t s e) = Ok (v, t') /\ rob (eff E) (bound_value E) (e_data E) f s v.
Proof. exact until_exact. Qed.
Print Assumptions C51_until_partial.

(** All three numbers, if the comparisons are below BigM. *)
Theorem C51_collapse_partial : forall w E, usual w E -> forall t f s e m, stands_for t f -> ufrag (bound_value E) w f ->
  0 <= s -> s <= e -> covers (bound_value E) (last_time (e_data E)) f e -> m < e_M E ->
  within (eff E) (e_data E) m f -> 0 <= e_M E -> regular (eff E) (bound_value E) (e_data E) f s e ->
  uncut (bound_value E) (last_time (e_data E)) f s e ->
  exists v, numbers (evaluate E t s e) = Ok (v, v, v) /\ rob (eff E) (bound_value E) (e_data E) f s v.
Proof. exact until_collapse. Qed.
Print Assumptions C51_collapse_partial.

(** C24 and C33 with until. *)
Theorem C33_until_partial : forall w E, usual w E -> forall t f s e m, stands_for t f -> ufrag (bound_value E) w f -> 0 <= s -> s <= e ->
  covers (bound_value E) (last_time (e_data E)) f e -> m < e_M E -> within (eff E) (e_data E) m f -> 0 <= e_M E ->
  regular (eff E) (bound_value E) (e_data E) f s e -> uncut (bound_value E) (last_time (e_data E)) f s e ->
  exists r lo up, numbers (evaluate E t s e) = Ok (r, lo, up) /\ lo <= r /\ r <= up /\
    (- m <= r /\ r <= m) /\ (- m <= lo /\ lo <= m) /\ (- m <= up /\ up <= m).
Proof. exact until_all_within. Qed.
Print Assumptions C33_until_partial.

(** (x + y > 1 until_[1,3] 2 y > x) and not (2 y > x until_[0,2] x + y > 1) => alw_[0,1] 2 y > x *)
Example C51_case : exists E f, usual 2 E /\ ufrag (bound_value E) 2 f /\ covers (bound_value E) (last_time (e_data E)) f 0 /\
  q 100 < e_M E /\ within (eff E) (e_data E) (q 100) f /\ regular (eff E) (bound_value E) (e_data E) f 0 0 /\
  uncut (bound_value E) (last_time (e_data E)) f 0 0 /\
  numbers (evaluate E (build f) 0 0) = Ok (Q2Qc (13 # 4), Q2Qc (13 # 4), Q2Qc (13 # 4)).
Proof.
  exists (env_of pact_data), pact. split; [apply mix_trace; auto|]. split; [exact pact_frag|]. split; [exact pact_covers|].
  split; [qdec|]. split; [exact pact_within|]. split; [exact pact_regular|]. split; [cbn [uncut pact x_plus_y y_over_x]; auto|].
  exact pact_numbers.
Qed.

(** (x + y > 1 or alw_[0,1] not 2 y > x) until_[1,2] (ev_[0,1] 2 y > x and (x + y > 1 => 2 y > x)) *)
Example C51_operands_case : exists E f, usual 2 E /\ ufrag (bound_value E) 2 f /\ covers (bound_value E) (last_time (e_data E)) f 0 /\
  q 100 < e_M E /\ within (eff E) (e_data E) (q 100) f /\ regular (eff E) (bound_value E) (e_data E) f 0 0 /\
  uncut (bound_value E) (last_time (e_data E)) f 0 0 /\
  numbers (evaluate E (build f) 0 0) = Ok (q (-2), q (-2), q (-2)).
Proof.
  exists (env_of pact_data), deal. split; [apply mix_trace; auto|]. split; [exact deal_frag|]. split; [exact deal_covers|].
  split; [qdec|]. split; [exact deal_within|]. split; [exact deal_regular|]. split; [exact deal_uncut|].
  vm_compute. reflexivity.
Qed.

(** A window that is one instant: undefined behaviour. *)
Theorem C51_refuted_instant : exists E f, usual 1 E /\ covers (bound_value E) (last_time (e_data E)) f 0 /\
  within (eff E) (e_data E) (q 100) f /\ q 100 < e_M E /\ regular (eff E) (bound_value E) (e_data E) f 0 0 /\
  (exists l i r, f = FUntil l i r /\ 0 <= bound_value E (ibegin i) /\ bound_value E (ibegin i) <= bound_value E (iend i) /\
     comparison 1 l /\ comparison 1 r) /\
  evaluate E (build f) 0 0 = UB.
Proof. exact instant_refuted. Qed.
Print Assumptions C51_refuted_instant.

(** An until below always. *)
Theorem C51_refuted_nested : exists E f, usual 1 E /\ covers (bound_value E) (last_time (e_data E)) f 0 /\
  within (eff E) (e_data E) (q 100) f /\ q 100 < e_M E /\ regular (eff E) (bound_value E) (e_data E) f 0 0 /\
  (exists i c, f = FAlw i c /\ 0 <= bound_value E (ibegin i) /\ bound_value E (ibegin i) <= bound_value E (iend i) /\ ufrag (bound_value E) 1 c) /\
  exists r lo up, numbers (evaluate E (build f) 0 0) = Ok (r, lo, up) /\ ~ rob (eff E) (bound_value E) (e_data E) f 0 r.
Proof. exact nested_refuted. Qed.
Print Assumptions C51_refuted_nested.

(** An until as an operand of until. *)
Theorem C51_refuted_operand : exists E f, usual 1 E /\ covers (bound_value E) (last_time (e_data E)) f 0 /\
  within (eff E) (e_data E) (q 100) f /\ q 100 < e_M E /\ regular (eff E) (bound_value E) (e_data E) f 0 0 /\
  (exists l i r, f = FUntil l i r /\ 0 <= bound_value E (ibegin i) /\ bound_value E (ibegin i) < bound_value E (iend i) /\
     comparison 1 l /\ ufrag (bound_value E) 1 r) /\
  exists r lo up, numbers (evaluate E (build f) 0 0) = Ok (r, lo, up) /\ ~ rob (eff E) (bound_value E) (e_data E) f 0 r.
Proof. exact waiting_refuted. Qed.
Print Assumptions C51_refuted_operand.

(** A comparison that is exactly BigM: the upper bound is not the robustness. *)
Theorem C51_refuted_at_BigM : exists E f, usual 1 E /\ covers (bound_value E) (last_time (e_data E)) f 0 /\ ufrag (bound_value E) 1 f /\
  within (eff E) (e_data E) (e_M E) f /\ 0 <= e_M E /\ regular (eff E) (bound_value E) (e_data E) f 0 0 /\
  exists r lo up, numbers (evaluate E (build f) 0 0) = Ok (r, lo, up) /\ ~ r = up.
Proof. exact at_top_refuted. Qed.
Print Assumptions C51_refuted_at_BigM.

(** C23 with until, one side at a time.  [sided] with [false]: until occurs only where a
    lower bound of it is needed, and the lower bound of the formula is proved; with [true],
    the other way round.  [begun]: where the operands of the until are known, they reach
    beyond the start of the window, and either to its end or less far than its length.
    Missing: the side on which an upper bound of until is needed, refuted below, and the
    states excluded by [begun], refuted below. *)
Theorem C23_until_partial : forall w E E', usual w E' -> e_data E <> [] -> extends E E' ->
  forall t f d m s e r lo up b, stands_for t f -> sided (bound_value E) w b f -> 0 <= s -> s <= e ->
  started (bound_value E) (last_time (e_data E)) f s -> m < e_M E -> within (eff E) (e_data E') m f -> 0 <= e_M E ->
  regular (eff E) (bound_value E) (e_data E) f s e -> uncut (bound_value E) (last_time (e_data E)) f s e ->
  grid_ok d f s e E -> begun (bound_value E) (last_time (e_data E)) b f s e ->
  covers (bound_value E) (last_time (e_data E')) f e -> numbers (evaluate E t s e) = Ok (r, lo, up) ->
  forall v, rob (eff E) (bound_value E) (e_data E') f s v -> if b then v <= up else lo <= v.
Proof. exact online_until. Qed.
Print Assumptions C23_until_partial.

(** not ((x + y > 1 or not 2 y > x) until_[1,4] 2 y > x) => alw_[0,1] 2 y > x, with samples up
    to time 3: the lower bound is -2, and with more samples the robustness is 2. *)
Example C23_until_case : exists E E' f, usual 2 E' /\ e_data E <> [] /\ extends E E' /\ sided (bound_value E) 2 false f /\
  started (bound_value E) (last_time (e_data E)) f 0 /\ q 100 < e_M E /\ within (eff E) (e_data E') (q 100) f /\
  regular (eff E) (bound_value E) (e_data E) f 0 0 /\ uncut (bound_value E) (last_time (e_data E)) f 0 0 /\
  grid_ok (q 1) f 0 0 E /\ begun (bound_value E) (last_time (e_data E)) false f 0 0 /\
  covers (bound_value E) (last_time (e_data E')) f 0 /\ ~ covers (bound_value E) (last_time (e_data E)) f 0 /\
  numbers (evaluate E (build f) 0 0) = Ok (q (-2), q (-2), q (-2)) /\
  numbers (evaluate E' (build f) 0 0) = Ok (q 2, q 2, q 2).
Proof.
  exists (env_of mix_partial), (env_of pact_data), plan. split; [apply mix_trace; auto|]. split; [discriminate|].
  split; [do 4 (split; [reflexivity|]); exists mix_more; reflexivity|]. split; [exact plan_sided|].
  split; [cbn [started plan x_plus_y y_over_x]; repeat split; qdec|]. split; [qdec|]. split; [exact plan_within|].
  split; [exact plan_regular|]. split; [cbn [uncut plan x_plus_y y_over_x]; repeat split|]. split; [exact plan_grid|].
  split; [exact plan_begun|]. split; [cbn [covers plan x_plus_y y_over_x]; repeat split; qdec|].
  split; [cbn [covers plan x_plus_y y_over_x]; intros (((H & _) & _) & _); apply H; reflexivity|]. exact plan_numbers.
Qed.

(** The upper bound of until: x > -20 until_[0,3] x > 0, with samples up to time 1. *)
Theorem C23_refuted_until : exists E E' f, usual 1 E' /\ e_data E <> [] /\ extends E E' /\ ufrag (bound_value E) 1 f /\
  started (bound_value E) (last_time (e_data E)) f 0 /\ within (eff E) (e_data E') (q 100) f /\ q 100 < e_M E /\
  regular (eff E) (bound_value E) (e_data E) f 0 0 /\ uncut (bound_value E) (last_time (e_data E)) f 0 0 /\
  grid_ok (q 1) f 0 0 E /\ begun (bound_value E) (last_time (e_data E)) true f 0 0 /\
  covers (bound_value E) (last_time (e_data E')) f 0 /\
  exists r lo up v, numbers (evaluate E (build f) 0 0) = Ok (r, lo, up) /\
    numbers (evaluate E' (build f) 0 0) = Ok (v, v, v) /\ rob (eff E) (bound_value E) (e_data E') f 0 v /\ up < v.
Proof. exact soon_refuted. Qed.
Print Assumptions C23_refuted_until.

(** The lower bound of until without [begun]. *)
Theorem C23_refuted_until_lower : exists E E' f, usual 1 E' /\ e_data E <> [] /\ extends E E' /\ sided (bound_value E) 1 false f /\
  started (bound_value E) (last_time (e_data E)) f 0 /\ within (eff E) (e_data E') (q 100) f /\ q 100 < e_M E /\
  regular (eff E) (bound_value E) (e_data E) f 0 0 /\ uncut (bound_value E) (last_time (e_data E)) f 0 0 /\
  grid_ok (q 1) f 0 0 E /\ covers (bound_value E) (last_time (e_data E')) f 0 /\
  exists r lo up v, numbers (evaluate E (build f) 0 0) = Ok (r, lo, up) /\
    numbers (evaluate E' (build f) 0 0) = Ok (v, v, v) /\ rob (eff E) (bound_value E) (e_data E') f 0 v /\ v < lo.
Proof. exact unsure_refuted. Qed.
Print Assumptions C23_refuted_until_lower.

(** C25 with until: more samples raise the upper bound. *)
Theorem C25_refuted_until : exists E E' f, usual 1 E' /\ e_data E <> [] /\ extends E E' /\ ufrag (bound_value E) 1 f /\
  started (bound_value E) (last_time (e_data E)) f 0 /\ within (eff E) (e_data E') (q 100) f /\ q 100 < e_M E /\
  regular (eff E) (bound_value E) (e_data E) f 0 0 /\ uncut (bound_value E) (last_time (e_data E)) f 0 0 /\
  grid_ok (q 1) f 0 0 E /\
  exists r lo up r' lo' up', numbers (evaluate E (build f) 0 0) = Ok (r, lo, up) /\
    numbers (evaluate E' (build f) 0 0) = Ok (r', lo', up') /\ up < up'.
Proof. exact soon_loosens. Qed.
Print Assumptions C25_refuted_until.
