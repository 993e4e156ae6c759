(** C34: signal expressions. *)
From Coq Require Import List QArith Qcanon Bool String Lia.
From Verif Require Import Num Base Signal Spec Transducer StlSpec TreeProof StlClaims SignalClaims Witness ExprClaims.
Import ListNotations.
Local Open Scope Qc_scope.
Local Open Scope string_scope.

(** C34, first half.  [expr] is the value of an expression over the interpolated operands.
    At the start of its horizon and at every sample time of the data in the horizon, the
    signal of any expression of any depth has that value. *)
Theorem C34_samples_partial : forall w E t f s e, e_ip E = LINEAR -> trace w (e_data E) -> expression w f -> stands_for t f ->
  0 <= e -> s <= e -> s <= last_time (e_data E) ->
  exists r t', compute_rob E (prepare E t s e) = Ok (r, t') /\ beginTime (tz t') = s /\
    forall a, a = s \/ (In a (map row_time (e_data E)) /\ s <= a /\ a <= e) ->
      exists v, at_time (tz t') a v /\ expr (eff E) (e_data E) f a v.
Proof. exact expression_samples. Qed.
Print Assumptions C34_samples_partial.

(** The three numbers of a comparison are the signed difference of the two expressions. *)
Theorem C34_comparison : forall w E t l op r s e, usual w E -> expression w l -> expression w r ->
  stands_for t (FAtom l op r) -> 0 <= s -> s <= e -> s <= last_time (e_data E) ->
  exists v, numbers (evaluate E t s e) = Ok (v, v, v) /\ difference (eff E) (e_data E) l op r s v.
Proof. exact comparison_numbers. Qed.
Print Assumptions C34_comparison.

(** For sums, differences and multiples the signal of the comparison is exact at every time
    up to the last sample time [c] of its horizon. *)
Theorem C34_between_samples : forall w E t l op r s e n t', usual w E -> expression w l -> expression w r -> affine l -> affine r ->
  stands_for t (FAtom l op r) -> 0 <= s -> s <= e -> s <= last_time (e_data E) -> evaluate E t s e = Ok (n, t') ->
  forall c, In c (map row_time (e_data E)) -> c <= e -> forall u, s <= u -> u <= c ->
    exists v, at_time (tz t') u v /\ difference (eff E) (e_data E) l op r u v.
Proof. exact comparison_signal. Qed.
Print Assumptions C34_between_samples.

(** C34, second half, is false: [x + 0] stops at the last sample of [x], and the always
    over it misses the fall of [x] that the always over [x] sees. *)
Theorem C34_refuted_range : exists E, usual 1 E /\ expression 1 xs0 /\
  (forall t v, expr (eff E) (e_data E) xs0 t v <-> expr (eff E) (e_data E) xs t v) /\
  (exists r t', compute_rob E (prepare E (build xs) 0 half) = Ok (r, t') /\ endTime (tz t') = half) /\
  (exists r t', compute_rob E (prepare E (build xs0) 0 half) = Ok (r, t') /\ endTime (tz t') = 0) /\
  numbers (evaluate E (build (FAlw upto_half (FAtom xs GREATERTHAN (FConst None 0)))) 0 0) = Ok (q (-1), q (-1), q (-1)) /\
  numbers (evaluate E (build (FAlw upto_half (FAtom xs0 GREATERTHAN (FConst None 0)))) 0 0) = Ok (q 1, q (-10000), q 1).
Proof. exact range_missing. Qed.
Print Assumptions C34_refuted_range.

(** Why [affine]: the absolute value of a signal crossing zero is missed between samples. *)
Theorem C34_refuted_between : exists E, usual 1 E /\ expression 1 (FAbs xs) /\
  (exists r t', compute_rob E (prepare E (build (FAbs xs)) 0 (q 2)) = Ok (r, t') /\ at_time (tz t') (q 1) (q 1)) /\
  expr (eff E) (e_data E) (FAbs xs) (q 1) 0 /\
  numbers (evaluate E (build (FAlw (iv 0 2) (FAtom (FAbs xs) GREATERTHAN (FConst None 0)))) 0 0) = Ok (q 1, q 1, q 1).
Proof. exact between_missing. Qed.
Print Assumptions C34_refuted_between.

(** |x * y| - 2 x < y at time 1, between two samples. *)
Example C34_case : exists E l, usual 2 E /\ expression 2 l /\
  numbers (evaluate E (build (FAtom l LESSTHAN (FSig "y" 2))) (q 1) (q 3)) = Ok (q 3, q 3, q 3) /\ q 1 <= last_time (e_data E) /\
  map (map row_time) [e_data E] = [[q 0; q 2; q 3]].
Proof.
  exists (env_of [[q 0; q 1; q 3]; [q 2; q 3; q (-1)]; [q 3; q 2; q (-1)]]).
  exists (FMinus (FAbs (FMult (FSig "x" 1) (FSig "y" 2))) (FMult (FConst None (q 2)) (FSig "x" 1))).
  split; [|split; [cbn; repeat split; lia|split; [vm_compute; reflexivity|split; [vm_compute; discriminate|reflexivity]]]].
  split; [reflexivity|]. split; [reflexivity|]. apply trace_check. vm_compute. reflexivity.
Qed.

(** x + 2 y > -1, affine, on the same data. *)
Example C34_case_between : exists E l t', usual 2 E /\ expression 2 l /\ affine l /\
  evaluate E (build (FAtom l GREATERTHAN (FConst None (q (-1))))) (q 0) (q 3) = Ok (q 8, q 8, q 8, t') /\
  In (q 3) (map row_time (e_data E)) /\ at_time (tz t') (q 1) (q 5).
Proof.
  exists (env_of [[q 0; q 1; q 3]; [q 2; q 3; q (-1)]; [q 3; q 2; q (-1)]]).
  exists (FPlus (FSig "x" 1) (FMult (FConst None (q 2)) (FSig "y" 2))). eexists.
  split; [split; [reflexivity|]; split; [reflexivity|]; apply trace_check; vm_compute; reflexivity|].
  split; [cbn; repeat split; lia|]. split; [cbn; auto|]. split; [vm_compute; reflexivity|]. split; [right; right; left; reflexivity|].
  split; [vm_compute; discriminate|]. split; [vm_compute; discriminate|den].
Qed.
