(** Until on data that stops early: a case and counterexamples. *)
From Coq Require Import List String QArith Qcanon Bool.
From Verif Require Import Num Base Signal QcTac Robust Transducer Spec StlSpec SignalClaims ReadProof TreeProof StlClaims WithinTree Witness UntilTree UntilWitness UntilOnline.
Import ListNotations.
Local Open Scope string_scope.
Local Open Scope Qc_scope.

(** not ((x + y > 1 or not 2 y > x) until_[1,4] 2 y > x) => alw_[0,1] 2 y > x *)
Definition plan : fml Qc :=
  FImp (FNot (FUntil (FOr x_plus_y (FNot y_over_x)) (iv 1 4) y_over_x)) (FAlw (iv 0 1) y_over_x).

Lemma plan_sided : sided (bound_value (env_of mix_partial)) 2 false plan.
Proof.
  cbn [sided plan negb afrag x_plus_y y_over_x expression affine fixed].
  repeat match goal with |- _ /\ _ => split end; first [exact I | reflexivity | qdec | left; split; exact I | repeat constructor].
Qed.
Lemma plan_within : within (eff (env_of pact_data)) pact_data (q 100) plan.
Proof. destruct (mix_parts pact_data (or_intror eq_refl)). cbn [within plan]. auto 6. Qed.
Lemma plan_regular : regular (eff (env_of mix_partial)) (bound_value (env_of mix_partial)) mix_partial plan 0 0.
Proof.
  cbn [regular plan x_plus_y y_over_x].
  assert (R1 : In (0 + bound_value (env_of mix_partial) (iend (iv 0 1))) (map row_time mix_partial)) by (do 1 right; left; apply Qc_is_canon; vm_compute; reflexivity).
  assert (R2 : last_time mix_partial <= 0 + bound_value (env_of mix_partial) (iend (iv 1 4))) by qdec.
  split; [split; [split; right; right; exact R2|right; right; exact R2]|]. split; [intros _ C; discriminate C|right; left; exact R1].
Qed.
Lemma plan_grid : grid_ok (q 1) plan 0 0 (env_of mix_partial).
Proof.
  split; [qdec|]. split.
  - cbn [gridded plan x_plus_y y_over_x]. split; [|split; [apply (on_grid_q 0)|split; [apply (on_grid_q 1)|exact I]]].
    split; [apply (on_grid_q 1)|]. split; [apply (on_grid_q 4)|]. repeat split.
  - split; [apply (on_grid_q 0)|]. split; [apply (on_grid_q 0)|apply (on_grid_q 3)].
Qed.
Lemma plan_begun : begun (bound_value (env_of mix_partial)) (last_time mix_partial) false plan 0 0.
Proof. cbn [begun plan negb]. split; [|exact I]. split; [qdec|right; qdec]. Qed.
Lemma plan_numbers : numbers (evaluate (env_of mix_partial) (build plan) 0 0) = Ok (q (-2), q (-2), q (-2)) /\
  numbers (evaluate (env_of pact_data) (build plan) 0 0) = Ok (q 2, q 2, q 2).
Proof. split; vm_compute; reflexivity. Qed.

(** ((x + y > 1 or 2 y > x) until_[0,4] 2 y > x) and not alw_[0,2] 2 y > x *)
Definition keen : fml Qc := FAnd (FUntil (FOr x_plus_y y_over_x) (iv 0 4) y_over_x) (FNot (FAlw (iv 0 2) y_over_x)).
Lemma keen_sided : sided (bound_value (env_of mix_partial)) 2 false keen.
Proof.
  cbn [sided keen negb afrag x_plus_y y_over_x expression affine fixed].
  repeat match goal with |- _ /\ _ => split end; first [exact I | reflexivity | qdec | left; split; exact I | repeat constructor].
Qed.
Lemma keen_within : within (eff (env_of pact_data)) pact_data (q 100) keen.
Proof. destruct (mix_parts pact_data (or_intror eq_refl)). cbn [within keen]. auto 6. Qed.
Lemma keen_regular : forall d, d = mix_partial \/ d = pact_data -> regular (eff (env_of d)) (bound_value (env_of d)) d keen 0 0.
Proof.
  intros d D. cbn [regular keen x_plus_y y_over_x].
  assert (R1 : In (0 + bound_value (env_of d) (iend (iv 0 2))) (map row_time d)) by (destruct D as [->| ->]; do 2 right; left; apply Qc_is_canon; vm_compute; reflexivity).
  assert (R2 : In (0 + bound_value (env_of d) (iend (iv 0 4))) (map row_time d) \/ last_time d <= 0 + bound_value (env_of d) (iend (iv 0 4)))
    by (destruct D as [->| ->]; [right; qdec|left; do 4 right; left; apply Qc_is_canon; vm_compute; reflexivity]).
  split; [split; [split|]; right; exact R2|]. split; [intros _ C; discriminate C|right; left; exact R1].
Qed.
Lemma keen_grid : grid_ok (q 1) keen 0 0 (env_of mix_partial).
Proof.
  split; [qdec|]. split.
  - cbn [gridded keen x_plus_y y_over_x]. split; [|split; [apply (on_grid_q 0)|split; [apply (on_grid_q 2)|exact I]]].
    split; [apply (on_grid_q 0)|]. split; [apply (on_grid_q 4)|]. repeat split.
  - split; [apply (on_grid_q 0)|]. split; [apply (on_grid_q 0)|apply (on_grid_q 3)].
Qed.
Lemma keen_begun : begun (bound_value (env_of mix_partial)) (last_time mix_partial) false keen 0 0.
Proof. cbn [begun keen negb]. split; [|exact I]. split; [qdec|right; qdec]. Qed.

(** x > -20 until_[0,3] x > 0, on two samples and on four. *)
Definition soon_data : list (list Qc) := [[q 0; q (-1)]; [q 1; q (-1)]].
Definition soon_more : list (list Qc) := [[q 2; q 5]; [q 4; q 5]].
Lemma soon_usual : usual 1 (env_of (soon_data ++ soon_more)).
Proof. split; [reflexivity|]. split; [reflexivity|]. apply trace_check. vm_compute. reflexivity. Qed.
Lemma flat_within : forall data lo hi f, usual 1 (env_of data) -> q (-20) <= lo -> hi <= q 20 ->
  Forall (fun r => lo <= nth 1 r 0 /\ nth 1 r 0 <= hi) data ->
  (exists c, f = FAtom (FSig "x" 1) GREATERTHAN (FConst None c) /\ q (-60) <= c /\ c <= q 60) ->
  within (eff (env_of data)) data (q 100) f.
Proof.
  intros data lo hi f (_ & _ & _ & R & _) L H F (c & -> & C1 & C2). cbn [e_data env_of] in R.
  cbn [within rob expr operand]. intros t v (a & b & A & -> & ->). change (eff (env_of data) None c) with c.
  assert (C : lo <= a /\ a <= hi) by (revert A; apply column_within; auto). destruct C.
  assert (- q 100 <= q (-20) - q 60) by qdec. assert (q 20 - q (-60) <= q 100) by qdec. split; qlra.
Qed.

(** The same hypotheses for both sets of data. *)
Lemma rob_on : forall data more f v, usual 1 (env_of (data ++ more)) ->
  ufrag (bound_value (env_of (data ++ more))) 1 f -> covers (bound_value (env_of (data ++ more))) (last_time (data ++ more)) f 0 ->
  within (eff (env_of (data ++ more))) (data ++ more) (q 100) f ->
  regular (eff (env_of (data ++ more))) (bound_value (env_of (data ++ more))) (data ++ more) f 0 0 ->
  uncut (bound_value (env_of (data ++ more))) (last_time (data ++ more)) f 0 0 ->
  numbers (evaluate (env_of (data ++ more)) (build f) 0 0) = Ok (v, v, v) ->
  rob (eff (env_of data)) (bound_value (env_of data)) (data ++ more) f 0 v.
Proof.
  intros data more f v U F C W R UC N. set (E := env_of (data ++ more)) in *.
  assert (L1 : q 100 < e_M E) by qdec. assert (L2 : 0 <= e_M E) by qdec.
  destruct (until_collapse 1 E U (build f) f 0 0 (q 100) eq_refl F (Qcle_refl 0) (Qcle_refl 0) C L1 W L2 R UC) as (x & N' & H).
  rewrite N in N'. injection N' as <-. exact H.
Qed.

Lemma soon_frag : forall d, ufrag (bound_value (env_of d)) 1 hold_on.
Proof.
  intros d. cbn [ufrag hold_on afrag above pos affine]. change (bound_value (env_of d) (ibegin (iv 0 3))) with (q 0).
  change (bound_value (env_of d) (iend (iv 0 3))) with (q 3). repeat match goal with |- _ /\ _ => split end; first [qdec|repeat constructor].
Qed.
Lemma soon_within : within (eff (env_of (soon_data ++ soon_more))) (soon_data ++ soon_more) (q 100) hold_on.
Proof.
  split; apply (flat_within (soon_data ++ soon_more) (q (-1)) (q 5)); try exact soon_usual; try qdec;
      try (repeat constructor; qdec); (eexists; split; [reflexivity|split; qdec]).
Qed.
Lemma soon_covers : covers (bound_value (env_of (soon_data ++ soon_more))) (last_time (soon_data ++ soon_more)) hold_on 0.
Proof. cbn [covers hold_on above pos]; split; qdec. Qed.
Lemma soon_regular : forall d, regular (eff (env_of d)) (bound_value (env_of d)) d hold_on 0 0.
Proof. intros d. split; left; split; exact I. Qed.
Lemma soon_uncut : forall d, uncut (bound_value (env_of d)) (last_time d) hold_on 0 0.
Proof. intros d. split; exact I. Qed.
Lemma soon_rob : rob (eff (env_of soon_data)) (bound_value (env_of soon_data)) (soon_data ++ soon_more) hold_on 0 (q 5).
Proof.
  apply (rob_on soon_data soon_more hold_on (q 5) soon_usual (soon_frag _) soon_covers soon_within (soon_regular _) (soon_uncut _)).
  vm_compute. reflexivity.
Qed.

Lemma soon_refuted : exists E E' f, usual 1 E' /\ e_data E <> [] /\ extends E E' /\ ufrag (bound_value E) 1 f /\
  started (bound_value E) (last_time (e_data E)) f 0 /\ within (eff E) (e_data E') (q 100) f /\ q 100 < e_M E /\
  regular (eff E) (bound_value E) (e_data E) f 0 0 /\ uncut (bound_value E) (last_time (e_data E)) f 0 0 /\
  grid_ok (q 1) f 0 0 E /\ begun (bound_value E) (last_time (e_data E)) true f 0 0 /\
  covers (bound_value E) (last_time (e_data E')) f 0 /\
  exists r lo up v, numbers (evaluate E (build f) 0 0) = Ok (r, lo, up) /\
    numbers (evaluate E' (build f) 0 0) = Ok (v, v, v) /\ rob (eff E) (bound_value E) (e_data E') f 0 v /\ up < v.
Proof.
  exists (env_of soon_data), (env_of (soon_data ++ soon_more)), hold_on.
  split; [exact soon_usual|]. split; [discriminate|]. split; [do 4 (split; [reflexivity|]); exists soon_more; reflexivity|].
  split; [exact (soon_frag _)|]. split; [split; qdec|]. split; [exact soon_within|]. split; [qdec|].
  split; [exact (soon_regular _)|]. split; [exact (soon_uncut _)|]. split.
  { split; [qdec|]. split; [split; [apply (on_grid_q 0)|split; [apply (on_grid_q 3)|split; exact I]]|].
    split; [apply (on_grid_q 0)|]. split; [apply (on_grid_q 0)|apply (on_grid_q 1)]. }
  split; [cbn [begun hold_on]; split; [qdec|right; qdec]|]. split; [exact soon_covers|].
  exists (q (-1)), (q (-1)), (q (-1)), (q 5). split; [vm_compute; reflexivity|]. split; [vm_compute; reflexivity|].
  split; [exact soon_rob|qdec].
Qed.

(** (alw_[0,5] (x > 0 and x > -20) or x > -20) until_[1,2] x > 50: the left operand is not
    known beyond time 0, and the lower bound is that of the left operand alone. *)
Definition never : fml Qc := FAtom (FSig "x" 1) GREATERTHAN (FConst None (q 50)).
Definition unsure : fml Qc := FUntil (FOr (FAlw (iv 0 5) (FAnd (pos 1) above)) above) (iv 1 2) never.
Definition one_data : list (list Qc) := [[q 0; q 1]; [q 1; q 1]; [q 2; q 1]].
Definition one_more : list (list Qc) := [[q 9; q 1]].
Lemma one_usual : usual 1 (env_of (one_data ++ one_more)).
Proof. split; [reflexivity|]. split; [reflexivity|]. apply trace_check. vm_compute. reflexivity. Qed.
Lemma one_sided : sided (bound_value (env_of one_data)) 1 false unsure.
Proof. cbn [sided unsure afrag above pos never affine]. repeat match goal with |- _ /\ _ => split end; first [reflexivity|qdec|repeat constructor]. Qed.
Lemma one_frag : ufrag (bound_value (env_of (one_data ++ one_more))) 1 unsure.
Proof. cbn [ufrag unsure afrag above pos never affine]. repeat match goal with |- _ /\ _ => split end; first [qdec|repeat constructor]. Qed.
Lemma one_within : within (eff (env_of (one_data ++ one_more))) (one_data ++ one_more) (q 100) unsure.
Proof.
  split; [split; [split|]|]; apply (flat_within (one_data ++ one_more) (q 1) (q 1)); try exact one_usual; try qdec;
      try (repeat constructor; qdec); (eexists; split; [reflexivity|split; qdec]).
Qed.
Lemma one_covers : covers (bound_value (env_of (one_data ++ one_more))) (last_time (one_data ++ one_more)) unsure 0.
Proof. cbn [covers unsure above pos never]; repeat split; qdec. Qed.
Lemma one_regular : forall d, regular (eff (env_of d)) (bound_value (env_of d)) d unsure 0 0.
Proof.
  intros d. cbn [regular unsure above pos never settled]. repeat match goal with |- _ /\ _ => split end; try (left; split; exact I).
  intros _ _. exact I.
Qed.
Lemma one_uncut : forall d, uncut (bound_value (env_of d)) (last_time d) unsure 0 0.
Proof. intros d. cbn [uncut unsure above pos never]. repeat split. Qed.
Lemma one_rob : rob (eff (env_of one_data)) (bound_value (env_of one_data)) (one_data ++ one_more) unsure 0 (q (-49)).
Proof.
  apply (rob_on one_data one_more unsure (q (-49)) one_usual one_frag one_covers one_within (one_regular _) (one_uncut _)).
  vm_compute. reflexivity.
Qed.
Lemma unsure_refuted : exists E E' f, usual 1 E' /\ e_data E <> [] /\ extends E E' /\ sided (bound_value E) 1 false f /\
  started (bound_value E) (last_time (e_data E)) f 0 /\ within (eff E) (e_data E') (q 100) f /\ q 100 < e_M E /\
  regular (eff E) (bound_value E) (e_data E) f 0 0 /\ uncut (bound_value E) (last_time (e_data E)) f 0 0 /\
  grid_ok (q 1) f 0 0 E /\ covers (bound_value E) (last_time (e_data E')) f 0 /\
  exists r lo up v, numbers (evaluate E (build f) 0 0) = Ok (r, lo, up) /\
    numbers (evaluate E' (build f) 0 0) = Ok (v, v, v) /\ rob (eff E) (bound_value E) (e_data E') f 0 v /\ v < lo.
Proof.
  exists (env_of one_data), (env_of (one_data ++ one_more)), unsure.
  split; [exact one_usual|]. split; [discriminate|]. split; [do 4 (split; [reflexivity|]); exists one_more; reflexivity|].
  split; [exact one_sided|]. split; [cbn [started unsure above pos never]; repeat split; qdec|]. split; [exact one_within|]. split; [qdec|].
  split; [exact (one_regular _)|]. split; [exact (one_uncut _)|]. split.
  { split; [qdec|]. split.
    - cbn [gridded unsure above pos never]. split; [apply (on_grid_q 1)|]. split; [apply (on_grid_q 2)|]. split; [|exact I].
      split; [|exact I]. split; [apply (on_grid_q 0)|]. split; [apply (on_grid_q 5)|]. repeat split.
    - split; [apply (on_grid_q 0)|]. split; [apply (on_grid_q 0)|apply (on_grid_q 2)]. }
  split; [exact one_covers|].
  exists (q (-49)), (q 21), (q (-49)), (q (-49)). split; [vm_compute; reflexivity|]. split; [vm_compute; reflexivity|].
  split; [exact one_rob|qdec].
Qed.
Lemma soon_loosens : exists E E' f, usual 1 E' /\ e_data E <> [] /\ extends E E' /\ ufrag (bound_value E) 1 f /\
  started (bound_value E) (last_time (e_data E)) f 0 /\ within (eff E) (e_data E') (q 100) f /\ q 100 < e_M E /\
  regular (eff E) (bound_value E) (e_data E) f 0 0 /\ uncut (bound_value E) (last_time (e_data E)) f 0 0 /\
  grid_ok (q 1) f 0 0 E /\
  exists r lo up r' lo' up', numbers (evaluate E (build f) 0 0) = Ok (r, lo, up) /\
    numbers (evaluate E' (build f) 0 0) = Ok (r', lo', up') /\ up < up'.
Proof.
  destruct soon_refuted as (E & E' & f & A1 & A2 & A3 & A4 & A5 & A6 & A7 & A8 & A9 & A10 & _ & _ & r & lo & up & v & N & N' & _ & L).
  exists E, E', f. repeat (split; [assumption|]). exists r, lo, up, v, v, v. auto.
Qed.
