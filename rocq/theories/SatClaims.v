(** Verdicts of evaluations. *)
From Coq Require Import List String QArith Qcanon Bool.
From Verif Require Import Num Base Signal QcTac Robust Transducer Spec StlSpec SatSpec SigProof Lip ReadProof TreeProof TreeRob SignalClaims StlClaims WithinTree Witness UntilTree UntilWitness UntilOnline SatProof.
Import ListNotations.
Local Open Scope string_scope.
Local Open Scope Qc_scope.

Lemma verdict : forall w E, usual w E -> forall t f s e m, stands_for t f -> ufrag (bound_value E) w f ->
  0 <= s -> s <= e -> covers (bound_value E) (last_time (e_data E)) f e -> m < e_M E ->
  within (eff E) (e_data E) m f -> 0 <= e_M E -> regular (eff E) (bound_value E) (e_data E) f s e ->
  uncut (bound_value E) (last_time (e_data E)) f s e ->
  exists v, numbers (evaluate E t s e) = Ok (v, v, v) /\
    forall weak, (0 < v -> holds weak (eff E) (bound_value E) (e_data E) f s) /\ (v < 0 -> ~ holds weak (eff E) (bound_value E) (e_data E) f s).
Proof.
  intros w E U t f s e m SF F H0 H1 C Lm W HM RS UC.
  destruct (until_collapse w E U t f s e m SF F H0 H1 C Lm W HM RS UC) as (v & N & R).
  exists v. split; [exact N|]. intros weak. apply sign; auto. destruct U as (_ & _ & _ & RI & _). exact RI.
Qed.

Lemma extends_eff : forall E E' : env Qc, extends E E' -> eff E' = eff E /\ bound_value E' = bound_value E.
Proof. intros E E' (_ & _ & _ & P & _). unfold eff, bound_value, get_param. rewrite P. auto. Qed.

Lemma online_verdict : forall w E E', usual w E' -> e_data E <> [] -> extends E E' ->
  forall t f d s e r lo up, stands_for t f -> afrag (bound_value E) w f -> 0 <= s -> s <= e ->
  started (bound_value E) (last_time (e_data E)) f s -> within (eff E) (e_data E') (e_M E) f -> 0 <= e_M E ->
  regular (eff E) (bound_value E) (e_data E) f s e -> uncut (bound_value E) (last_time (e_data E)) f s e ->
  grid_ok d f s e E -> covers (bound_value E) (last_time (e_data E')) f e -> regular (eff E) (bound_value E) (e_data E') f s e ->
  numbers (evaluate E t s e) = Ok (r, lo, up) ->
  forall weak, (0 < lo -> holds weak (eff E) (bound_value E) (e_data E') f s) /\
    (up < 0 -> ~ holds weak (eff E) (bound_value E) (e_data E') f s).
Proof.
  intros w E E' U ND X t f d s e r lo up SF F H0 H1 ST W HM RS UC G C RS' N weak.
  destruct (extends_eff E E' X) as [X1 X2]. pose proof X as (_ & _ & XM & _).
  destruct (exact_rob w E' U t f s e SF) as (v & t' & _ & R); rewrite ?X1, ?X2, ?XM; auto.
  rewrite X1, X2 in R.
  destruct (future w E E' U ND X t f d s e r lo up SF F H0 H1 ST W HM RS UC G C N v R) as [L1 L2].
  destruct U as (_ & _ & _ & RI & _). destruct (sign weak (eff E) (bound_value E) (e_data E') RI f s v R) as [S1 S2].
  split; intros P; [apply S1|apply S2]; qlra.
Qed.

Lemma online_until_verdict : forall w E E', usual w E' -> e_data E <> [] -> extends E E' ->
  forall t f d m s e r lo up b, stands_for t f -> sided (bound_value E) w b f -> 0 <= s -> s <= e ->
  started (bound_value E) (last_time (e_data E)) f s -> m < e_M E -> within (eff E) (e_data E') m f -> 0 <= e_M E ->
  regular (eff E) (bound_value E) (e_data E) f s e -> uncut (bound_value E) (last_time (e_data E)) f s e ->
  grid_ok d f s e E -> begun (bound_value E) (last_time (e_data E)) b f s e ->
  covers (bound_value E) (last_time (e_data E')) f e -> regular (eff E) (bound_value E) (e_data E') f s e ->
  numbers (evaluate E t s e) = Ok (r, lo, up) ->
  forall weak, if b then up < 0 -> ~ holds weak (eff E) (bound_value E) (e_data E') f s
    else 0 < lo -> holds weak (eff E) (bound_value E) (e_data E') f s.
Proof.
  intros w E E' U ND X t f d m s e r lo up b SF F H0 H1 ST Lm W HM RS UC G B C RS' N weak.
  destruct (extends_eff E E' X) as [X1 X2]. pose proof X as (_ & _ & XM & _).
  destruct (until_exact w E' U t f s e SF) as (v & t' & _ & R); rewrite ?X1, ?X2, ?XM; auto.
  { eapply sided_ufrag; eauto. }
  { eapply within_le; [|exact W]. qlra. }
  rewrite X1, X2 in R.
  pose proof (online_until w E E' U ND X t f d m s e r lo up b SF F H0 H1 ST Lm W HM RS UC G B C N v R) as L.
  destruct U as (_ & _ & _ & RI & _). destruct (sign weak (eff E) (bound_value E) (e_data E') RI f s v R) as [S1 S2].
  destruct b; intros P; [apply S2|apply S1]; qlra.
Qed.

Lemma ufrag_atoms : forall val w f, ufrag val w f -> linear_atoms w f.
Proof.
  intros val w. assert (A : forall f, afrag val w f -> linear_atoms w f).
  { induction f; cbn [afrag linear_atoms comparison]; intros F; try contradiction; try tauto. }
  induction f; cbn [ufrag linear_atoms]; intros F; try (apply (A _ F)); try tauto.
  destruct F as (_ & _ & F1 & F2). auto.
Qed.

Lemma margin : forall w E E' d, usual w E -> usual w E' -> e_M E' = e_M E -> e_params E' = e_params E ->
  0 <= d -> near d (e_data E) (e_data E') ->
  forall t t' f s e m, stands_for t f -> stands_for t' f -> ufrag (bound_value E) w f ->
  0 <= s -> s <= e -> covers (bound_value E) (last_time (e_data E)) f e -> m < e_M E ->
  within (eff E) (e_data E) m f -> within (eff E) (e_data E') m f -> 0 <= e_M E ->
  regular (eff E) (bound_value E) (e_data E) f s e -> regular (eff E) (bound_value E) (e_data E') f s e ->
  uncut (bound_value E) (last_time (e_data E)) f s e ->
  exists v v', numbers (evaluate E t s e) = Ok (v, v, v) /\ numbers (evaluate E' t' s e) = Ok (v', v', v') /\
    v - v' <= gain (eff E) f * d /\ v' - v <= gain (eff E) f * d.
Proof.
  intros w E E' d U U' XM XP D N t t' f s e m SF SF' F H0 H1 C Lm W W' HM RS RS' UC.
  assert (X1 : eff E' = eff E) by (unfold eff, get_param; rewrite XP; auto).
  assert (X2 : bound_value E' = bound_value E) by (unfold bound_value, get_param; rewrite XP; auto).
  assert (X3 : last_time (e_data E') = last_time (e_data E)).
  { unfold last_time. replace (map row_time (e_data E')) with (map row_time (e_data E)); auto.
    clear - N. induction N as [|r r' l l' [A _] N IH]; cbn [map]; [auto|]. rewrite A, IH. auto. }
  destruct (until_collapse w E U t f s e m SF F H0 H1 C Lm W HM RS UC) as (v & N1 & R1).
  destruct (until_collapse w E' U' t' f s e m SF') as (v' & N2 & R2); rewrite ?X1, ?X2, ?X3, ?XM; auto.
  rewrite X1, X2 in R2. exists v, v'. split; [auto|]. split; [auto|].
  destruct U as (_ & _ & _ & RI & _).
  exact (rob_near (eff E) (bound_value E) d (e_data E) (e_data E') N RI D w f s v v' (ufrag_atoms _ _ _ F) R1 R2).
Qed.

(** What is decided with a margin stays decided, whatever else holds of the other trace. *)
Lemma stays : forall w E, usual w E -> forall t f s e m, stands_for t f -> ufrag (bound_value E) w f ->
  0 <= s -> s <= e -> covers (bound_value E) (last_time (e_data E)) f e -> m < e_M E ->
  within (eff E) (e_data E) m f -> 0 <= e_M E -> regular (eff E) (bound_value E) (e_data E) f s e ->
  uncut (bound_value E) (last_time (e_data E)) f s e ->
  exists v, numbers (evaluate E t s e) = Ok (v, v, v) /\
    forall d data' weak, 0 <= d -> near d (e_data E) data' ->
      (gain (eff E) f * d < v -> holds weak (eff E) (bound_value E) data' f s) /\
      (v < - (gain (eff E) f * d) -> ~ holds weak (eff E) (bound_value E) data' f s).
Proof.
  intros w E U t f s e m SF F H0 H1 C Lm W HM RS UC.
  destruct (until_collapse w E U t f s e m SF F H0 H1 C Lm W HM RS UC) as (v & N & R).
  exists v. split; [exact N|]. intros d data' weak D Nr. destruct U as (_ & _ & ND & RI & _).
  assert (NE : data' <> []) by (intros ->; inversion Nr as [K|]; apply ND; auto).
  exact (holds_near (eff E) (bound_value E) d (e_data E) data' Nr RI D NE weak w f s v _ (ufrag_atoms _ _ _ F) (Qcle_refl _) R).
Qed.

(** ** Cases *)
Definition pact_moved : list (list Qc) := map (fun r => match r with t :: l => t :: map (fun x => x - q 1) l | [] => [] end) pact_data.
Lemma pact_near : near (q 1) pact_data pact_moved.
Proof.
  unfold near, pact_moved, pact_data. cbn [map app mix_partial mix_more].
  repeat constructor; try reflexivity; do 3 (destruct c as [|c]; [first [exfalso; inversion H; fail|vm_compute; discriminate]|]); destruct c; vm_compute; discriminate.
Qed.
Lemma pact_gain : gain (eff (env_of pact_data)) pact * q 1 < Q2Qc (13 # 4).
Proof. vm_compute. reflexivity. Qed.

(** alw_[0,2] (x > -20 until_[0,3] x > 3/2) holds and is evaluated to -1/2. *)
Definition sated : fml Qc := FAlw (iv 0 2) (FUntil above (iv 0 3) (FAtom (FSig "x" 1) GREATERTHAN (FConst None (Q2Qc (3 # 2))))).
Lemma sated_holds : forall weak, holds weak (eff (env_of vee_data)) (bound_value (env_of vee_data)) vee_data sated 0.
Proof.
  intros weak u U1 U2. pose proof vee_usual as (_ & _ & ND & R & _). cbn [e_data env_of] in R.
  assert (RC : rising (column vee_data 1)) by (apply column_rising; auto).
  change (0 + bound_value (env_of vee_data) (ibegin (iv 0 2))) with (q 0) in *.
  change (0 + bound_value (env_of vee_data) (iend (iv 0 2))) with (q 2) in *.
  assert (A : forall z, holds weak (eff (env_of vee_data)) (bound_value (env_of vee_data)) vee_data above z).
  { intros z. exists (interp (column vee_data 1) z), (q (-20)).
    assert (L : linear (column vee_data 1) z (interp (column vee_data 1) z)) by (apply interp_linear; auto; discriminate).
    split; [exact L|]. split; [reflexivity|].
    assert (B : q 0 <= interp (column vee_data 1) z /\ interp (column vee_data 1) z <= q 8).
    { revert L. apply column_within; auto. repeat constructor; qdec. }
    assert (q (-20) < q 0) by qdec. destruct B. destruct weak; qlra. }
  assert (N3 : q 0 < q 3) by qdec. assert (Z0 : q 0 = 0) by reflexivity.
  assert (K : forall t, u + q 0 <= t -> t <= u + q 3 -> q 2 <= interp (column vee_data 1) t ->
    holds weak (eff (env_of vee_data)) (bound_value (env_of vee_data)) vee_data (FUntil above (iv 0 3) (FAtom (FSig "x" 1) GREATERTHAN (FConst None (Q2Qc (3 # 2))))) u).
  { intros t T1 T2 T3. exists t. split; [exact T1|]. split; [exact T2|]. split; [|intros; apply A].
    exists (interp (column vee_data 1) t), (Q2Qc (3 # 2)). split; [apply interp_linear; auto; discriminate|]. split; [reflexivity|].
    assert (Q2Qc (3 # 2) < q 2) by qdec. destruct weak; qlra. }
  assert (Z1 : q 3 + 1 = q 4) by (apply Qc_is_canon; vm_compute; reflexivity). assert (Z2 : q 3 + q 2 <= q 10) by qdec.
  destruct (Qclt_le_dec u 1) as [C|C].
  - apply (K u); try qlra. apply (proj1 (vee_high u)); qlra.
  - apply (K (u + q 3)); try qlra. apply (proj2 (vee_high (u + q 3))); qlra.
Qed.
Lemma sated_refuted : exists E f, usual 1 E /\ covers (bound_value E) (last_time (e_data E)) f 0 /\
  within (eff E) (e_data E) (q 100) f /\ q 100 < e_M E /\ regular (eff E) (bound_value E) (e_data E) f 0 0 /\
  exists r lo up, numbers (evaluate E (build f) 0 0) = Ok (r, lo, up) /\ r < 0 /\ up < 0 /\
    holds false (eff E) (bound_value E) (e_data E) f 0.
Proof.
  exists (env_of vee_data), sated. split; [exact vee_usual|]. split; [cbn [covers sated above]; repeat split; qdec|].
  split.
  { split; [apply vee_within; auto|]. pose proof vee_usual as (_ & _ & _ & R & _). cbn [e_data env_of] in *.
    cbn [within rob expr operand]. intros t v (a & b & A & -> & ->).
    assert (B : q 0 <= a /\ a <= q 8) by (revert A; apply column_within; [exact R|repeat constructor; qdec]). destruct B.
    change (eff (env_of vee_data) None (Q2Qc (3 # 2))) with (Q2Qc (3 # 2)).
    assert (- q 100 <= q 0 - Q2Qc (3 # 2)) by qdec. assert (q 8 - Q2Qc (3 # 2) <= q 100) by qdec. split; qlra. }
  split; [qdec|]. split; [split; [intros _ C; discriminate C|split; left; split; exact I]|].
  exists (Q2Qc (-1 # 2)), (Q2Qc (-1 # 2)), (Q2Qc (-1 # 2)). split; [vm_compute; reflexivity|]. split; [qdec|]. split; [qdec|].
  apply sated_holds.
Qed.

(** Two traces whose robustness differs by as much as it may. *)
Definition vee_less : list (list Qc) := [[q 0; q 3]; [q 2; q 1]; [q 10; q 8]].
Definition soon : fml Qc := FUntil above (iv 0 3) (pos 1).
Lemma vee_less_usual : usual 1 (env_of vee_less).
Proof. split; [reflexivity|]. split; [reflexivity|]. apply trace_check. vm_compute. reflexivity. Qed.
Lemma vee_pair : exists E E' f d v v', usual 1 E /\ usual 1 E' /\ e_M E' = e_M E /\ e_params E' = e_params E /\ 0 <= d /\
  near d (e_data E) (e_data E') /\ ufrag (bound_value E) 1 f /\ covers (bound_value E) (last_time (e_data E)) f 0 /\ q 100 < e_M E /\
  within (eff E) (e_data E) (q 100) f /\ within (eff E) (e_data E') (q 100) f /\
  regular (eff E) (bound_value E) (e_data E) f 0 0 /\ regular (eff E) (bound_value E) (e_data E') f 0 0 /\
  uncut (bound_value E) (last_time (e_data E)) f 0 0 /\
  numbers (evaluate E (build f) 0 0) = Ok (v, v, v) /\ numbers (evaluate E' (build f) 0 0) = Ok (v', v', v') /\
  gain (eff E) f * d = v - v'.
Proof.
  exists (env_of vee_data), (env_of vee_less), soon, (q 1), (q 4), (q 3). split; [exact vee_usual|]. split; [exact vee_less_usual|].
  split; [reflexivity|]. split; [reflexivity|]. split; [qdec|]. split.
  { unfold near, vee_data, vee_less, env_of. cbn [e_data].
    repeat constructor; try reflexivity; do 2 (destruct c as [|c]; [first [exfalso; inversion H; fail|vm_compute; discriminate]|]); destruct c; vm_compute; discriminate. }
  split; [cbn [ufrag soon above pos affine]; repeat match goal with |- _ /\ _ => split end; first [qdec|repeat constructor]|].
  split; [cbn [covers soon above pos]; repeat split; qdec|]. split; [qdec|]. split; [split; apply vee_within; auto|]. split.
  { pose proof vee_less_usual as (_ & _ & _ & R & _). cbn [e_data env_of] in *.
    assert (C : forall t v, linear (column vee_less 1) t v -> q 0 <= v /\ v <= q 8).
    { intros t v. apply column_within; auto. repeat constructor; qdec. }
    split; cbn [within above pos rob expr operand]; intros t v (a & b & A & -> & ->); apply C in A; destruct A;
      [change (eff (env_of vee_data) None (q (-20))) with (q (-20))|change (eff (env_of vee_data) None (q 0)) with (q 0)].
    - assert (- q 100 <= q 0 - q (-20)) by qdec. assert (q 8 - q (-20) <= q 100) by qdec. split; qlra.
    - assert (- q 100 <= q 0 - q 0) by qdec. assert (q 8 - q 0 <= q 100) by qdec. split; qlra. }
  split; [split; left; split; exact I|]. split; [split; left; split; exact I|]. split; [split; exact I|].
  split; [vm_compute; reflexivity|]. split; [vm_compute; reflexivity|]. apply Qc_is_canon. vm_compute. reflexivity.
Qed.
