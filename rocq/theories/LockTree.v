(** An evaluation on doubles gives the numbers of the evaluation on rationals: signals held
    between their samples, times on a binary grid. *)
From Coq Require Import List Bool String ZArith QArith Qcanon Lia PrimFloat.
From Verif Require Import Num NumFloat Base Signal Robust Transducer TreeProof QcTac Double DoubleProof Lock.
Import ListNotations.
Local Open Scope Qc_scope.
Local Existing Instance NumF.

Lemma lookup_q : forall m x, lookup x (map (fun kv => (fst kv, qval (snd kv))) m) = option_map qval (lookup x m).
Proof. induction m as [|[y v] m IH]; intros x; cbn; auto. destruct (String.eqb x y); auto. Qed.
Lemma get_param_q : forall E p, get_param (env_q E) p = option_map qval (get_param E p).
Proof. intros E [x|]; cbn; auto. apply lookup_q. Qed.
Lemma bound_value_q : forall E b, bound_value (env_q E) (bound_q b) = qval (bound_value E b).
Proof. intros E b. unfold bound_value. cbn [bstr bound_q bnum]. rewrite get_param_q. destruct (get_param E (bstr b)); reflexivity. Qed.
Lemma qval_0 : qval (@n0 float NumF) = 0.
Proof. apply den_0. Qed.
Lemma eff_q : forall E p v, eff (env_q E) p (qval v) = qval (eff E p v).
Proof. intros E [x|] v; cbn [eff]; auto. rewrite get_param_q. destruct (get_param E (Some x)); reflexivity. Qed.
Lemma eff_set : forall T (N : Num T) (E : env T) p v, eff E p (match get_param E p with Some x => x | None => v end) = eff E p v.
Proof. intros T N E [x|] v; cbn [eff]; auto. Qed.

Section Run.
Variables (k b w : Z) (E : env float).
Let top := (2 ^ 51 - 1)%Z.
Let M := e_M E.
Local Notation E' := (env_q E).
Hypothesis (Ip : e_ip E = PREVIOUS) (Sem : e_sem E = SPACE) (K : (0 <= k <= 44)%Z) (W0 : (0 <= w)%Z).
Hypothesis (Big : finite (e_M E)).
Hypothesis (Data : Forall (fun row => Forall finite row /\ forall t, nth_error row 0 = Some t -> fixed k b t) (e_data E)).
Hypothesis (B0 : (b <= top)%Z).

Lemma top_lt : (top < 2 ^ 51)%Z.
Proof. unfold top. lia. Qed.
Lemma tm_fixed : forall c x, fixed k c x -> (c <= top)%Z -> tm k top c x (qval x).
Proof. intros c x (A & B) L. split; auto. split; [split; auto|exact B]. Qed.
Lemma denM : den M (e_M E').
Proof. split; auto. Qed.
Lemma finite_den : forall row, Forall finite row -> Forall2 den row (map qval row).
Proof. intros row H. induction H; constructor; auto. split; auto. Qed.
Lemma nth_map : forall n (row : list float) q, nth_error (map qval row) n = Some q -> exists x, nth_error row n = Some x /\ q = qval x.
Proof. induction n as [|n IH]; intros [|y row] q H; cbn in *; try discriminate; [injection H as <-; eauto|auto]. Qed.
Lemma dataR : Forall2 (rowR k top b) (e_data E) (e_data E').
Proof.
  cbn. induction Data as [|row rows [A B] H IH]; constructor.
  - split; [apply finite_den; auto|]. intros t t' H1 H2. apply nth_map in H2 as (x & H2 & ->). rewrite H1 in H2. injection H2 as <-. apply tm_fixed; auto.
  - apply IH. exact H.
Qed.

Lemma new_nR : forall P c s s' e e', (0 <= c <= top)%Z -> tm k top c s s' -> tm k top c e e' ->
  nR k top P c (with_horizon (reset_node new_node) s e) (with_horizon (reset_node new_node) s' e').
Proof.
  intros P c s s' e e' L S H. split; auto; apply (empty_lock k top K); auto.
Qed.

Lemma expr_prep : forall f c s s' e e', arithmetic f -> plain_numbers E k w f -> no_rounding E' (fml_q f) -> (0 <= c <= top)%Z -> tm k top c s s' -> tm k top c e e' ->
  exists P, XT k top E E' c P (prepare E (build f) s e) (prepare E' (build (fml_q f)) s' e') /\ forall x, P x -> taken E' (fml_q f) x.
Proof.
  induction f; intros c0 s s' e e' A N X L S He; cbn [arithmetic] in A; try contradiction; cbn [plain_numbers] in N; cbn [fml_q no_rounding] in X; cbn [fml_q build]; unfold prepare in *; cbn [set_trace set_params reset set_horizon].
  - eexists. split; [constructor; apply new_nR; auto|]. intros x H. exact H.
  - eexists. split.
    + constructor; [apply new_nR; auto|]. rewrite !eff_set, eff_q. split; auto.
    + intros x. unfold cst_values. rewrite eff_set. auto.
  - destruct (IHf c0 s s' e e' A N X L S He) as (P & H & HP). eexists. split; [constructor; [exact H|apply new_nR; auto]|].
    intros x (y & Y & ->). exists y. split; auto.
  - destruct A as [A1 A2], N as [N1 N2], X as (X1 & X2 & X3).
    destruct (IHf1 c0 s s' e e' A1 N1 X1 L S He) as (P & H & HP). destruct (IHf2 c0 s s' e e' A2 N2 X2 L S He) as (Q & H' & HQ).
    eexists. split; [constructor; [exact H|exact H'|auto|apply new_nR; auto]|]. intros x (y & z & Y & Z & ->). exists y, z. auto.
  - destruct A as [A1 A2], N as [N1 N2], X as (X1 & X2 & X3).
    destruct (IHf1 c0 s s' e e' A1 N1 X1 L S He) as (P & H & HP). destruct (IHf2 c0 s s' e e' A2 N2 X2 L S He) as (Q & H' & HQ).
    eexists. split; [constructor; [exact H|exact H'|auto|apply new_nR; auto]|]. intros x (y & z & Y & Z & ->). exists y, z. auto.
  - destruct A as [A1 A2], N as [N1 N2], X as (X1 & X2 & X3).
    destruct (IHf1 c0 s s' e e' A1 N1 X1 L S He) as (P & H & HP). destruct (IHf2 c0 s s' e e' A2 N2 X2 L S He) as (Q & H' & HQ).
    eexists. split; [constructor; [exact H|exact H'|auto|apply new_nR; auto]|]. intros x (y & z & Y & Z & ->). exists y, z. auto.
Qed.

Lemma win : forall i, fixed k w (bound_value E (ibegin i)) -> fixed k w (bound_value E (iend i)) -> (w <= top)%Z -> winR k top E E' w i (interval_q i).
Proof. intros i A B L. split; cbn [interval_q ibegin iend]; rewrite bound_value_q; apply tm_fixed; auto. Qed.
Lemma prep : forall g f h s s' e e', logical f -> plain_numbers E k w f -> no_rounding E' (fml_q f) -> tm k top h s s' -> tm k top h e e' ->
  (h + w * Z.of_nat (nesting f) <= g)%Z -> (lev w g (nesting f) <= top)%Z -> (w <= top)%Z ->
  RT k top E E' w true g (nesting f) (prepare E (build f) s e) (prepare E' (build (fml_q f)) s' e').
Proof.
  intros g f. induction f; intros h s s' e e' A N X S He Hg L Lw; cbn [logical] in A; try contradiction; cbn [plain_numbers] in N; cbn [fml_q no_rounding] in X; cbn [nesting] in *; cbn [fml_q build];
    unfold prepare in *; cbn [set_trace set_params reset set_horizon];
    assert (H0 : (0 <= h)%Z) by (apply (tm_range _ _ _ _ _ S));
    match type of L with (lev w g ?d <= top)%Z =>
      assert (Gd : (h <= g <= lev w g d)%Z) by (unfold lev; nia);
      assert (Nn : nR k top (fun _ => True) (lev w g d) (with_horizon (reset_node new_node) s e) (with_horizon (reset_node new_node) s' e'))
        by (apply new_nR; [lia|eapply tm_le; [exact S|lia]|eapply tm_le; [exact He|lia]]) end.
  - destruct A as [A1 A2], N as [N1 N2], X as (X1 & X2 & X3).
    assert (Sl : tm k top (lev w g 0) s s') by (eapply tm_le; [exact S|lia]). assert (El : tm k top (lev w g 0) e e') by (eapply tm_le; [exact He|lia]).
    destruct (expr_prep f1 (lev w g 0) s s' e e' A1 N1 X1 ltac:(lia) Sl El) as (P & H & HP). destruct (expr_prep f2 (lev w g 0) s s' e e' A2 N2 X2 ltac:(lia) Sl El) as (Q & H' & HQ).
    econstructor; [exact H|exact H'|auto|exact Nn].
  - constructor; [apply (IHf h); auto|exact Nn].
  - destruct A as [A1 A2], N as [N1 N2], X as (X1 & X2).
    apply (R_and _ _ _ _ _ _ _ (Nat.max (nesting f1) (nesting f2)) (nesting f1) (nesting f2)); auto; try lia; [apply (IHf1 h)|apply (IHf2 h)]; auto; try nia; unfold lev in *; nia.
  - destruct A as [A1 A2], N as [N1 N2], X as (X1 & X2).
    apply (R_or _ _ _ _ _ _ _ (Nat.max (nesting f1) (nesting f2)) (nesting f1) (nesting f2)); auto; try lia; [apply (IHf1 h)|apply (IHf2 h)]; auto; try nia; unfold lev in *; nia.
  - destruct A as [A1 A2], N as [N1 N2], X as (X1 & X2).
    apply (R_imp _ _ _ _ _ _ _ (Nat.max (nesting f1) (nesting f2)) (nesting f1) (nesting f2)); auto; try lia; [apply (IHf1 h)|apply (IHf2 h)]; auto; try nia; unfold lev in *; nia.
  - destruct N as (N1 & N2 & N3). destruct (win i N1 N2 Lw) as [Wa Wb]. assert (Lg : (h + w <= top)%Z) by nia.
    apply (R_ev _ _ _ _ _ _ _ (Datatypes.S (nesting f)) (nesting f)); auto; [|split; auto|eapply tm_le; [exact He|lia]|].
    + apply (IHf (h + w)%Z); auto; try (apply tm_add; auto); try nia. unfold lev in *; nia.
    + intros _. apply (empty_lock k top K). lia.
  - destruct N as (N1 & N2 & N3). destruct (win i N1 N2 Lw) as [Wa Wb]. assert (Lg : (h + w <= top)%Z) by nia.
    apply (R_alw _ _ _ _ _ _ _ (Datatypes.S (nesting f)) (nesting f)); auto; [|split; auto].
    apply (IHf (h + w)%Z); auto; try (apply tm_add; auto); try nia. unfold lev in *; nia.
  - destruct A as [A1 A2], N as (N1 & N2 & N3 & N4), X as (X1 & X2). destruct (win i N1 N2 Lw) as [Wa Wb]. assert (Lg : (h + w <= top)%Z) by nia.
    apply (R_until _ _ _ _ _ _ _ (Datatypes.S (Nat.max (nesting f1) (nesting f2))) (nesting f1) (nesting f2)); auto; try lia; [apply (IHf1 (h + w)%Z)|apply (IHf2 (h + w)%Z)|split; auto];
      auto; try (apply tm_add; auto); try nia; try (unfold lev in *; nia). eapply tm_le; [exact S|lia].
Qed.
End Run.

Lemma run_lock : forall k b w E t f s e, on_binary_times k b w E f s e -> no_rounding (env_q E) (fml_q f) -> skel t = skel (build f) ->
  agrees (numbers (evaluate E t s e)) (numbers (evaluate (env_q E) (build (fml_q f)) (qval s) (qval e))).
Proof.
  intros k b w E t f s e [Ip Sem K W0 Size Big Data S He Num Log] X Sk. rewrite (evaluate_skel E t (build f) s e Sk).
  set (top := (2 ^ 51 - 1)%Z). set (d := nesting f) in *. set (g := (b + w * Z.of_nat d)%Z).
  assert (Top : (top < 2 ^ 51)%Z) by (unfold top; lia).
  assert (B0 : (0 <= b)%Z) by (destruct S as [_ (m & Hm & _)]; lia).
  assert (LV : (2 * (lev w g d + 11 * w) <= top)%Z) by (unfold lev, g, top; change (2 ^ 51)%Z with (2 * 2 ^ 50)%Z; nia).
  assert (L0 : (b <= g <= lev w g d)%Z) by (unfold lev, g; nia).
  assert (Dn : den (e_M E) (e_M (env_q E))) by (split; auto).
  pose proof (dataR k b E Data ltac:(fold top; lia)) as DR. fold top in DR.
  assert (P0 : RT k top E (env_q E) w true g d (prepare E (build f) s e) (prepare (env_q E) (build (fml_q f)) (qval s) (qval e))).
  { apply (prep k w E K W0 g f b); auto; try (apply tm_fixed; auto; fold top; lia); fold top; fold d; try lia. }
  unfold evaluate.
  pose proof (rob_lock k top (e_M E) (e_M (env_q E)) K Top Dn E (env_q E) w b Ip Ip Sem Sem eq_refl eq_refl W0 DR g d _ _ ltac:(lia) P0 ltac:(lia)) as R1.
  destruct (compute_rob E _) as [[v1 t1]| | | |], (compute_rob (env_q E) _) as [[v1' t1']| | | |]; try contradiction; try exact Logic.I.
  destruct R1 as (V1 & T1 & _). cbn [fst snd] in V1, T1. cbn [bind].
  pose proof (bound_lock k top (e_M E) (e_M (env_q E)) K Top Dn E (env_q E) w b Ip Ip Sem Sem eq_refl eq_refl W0 DR) as BL.
  pose proof (BL (g + 7 * w)%Z d _ _ ltac:(lia) T1 ltac:(rewrite lev_shift; lia) false) as R2.
  destruct (compute_bound E false t1) as [[v2 t2]| | | |], (compute_bound (env_q E) false t1') as [[v2' t2']| | | |]; try contradiction; try exact Logic.I.
  destruct R2 as (V2 & T2). cbn [fst snd] in V2, T2. cbn [bind].
  pose proof (BL (g + 7 * w + 2 * w)%Z d _ _ ltac:(lia) T2 ltac:(rewrite !lev_shift; lia) true) as R3.
  destruct (compute_bound E true t2) as [[v3 t3]| | | |], (compute_bound (env_q E) true t2') as [[v3' t3']| | | |]; try contradiction; try exact Logic.I.
  destruct R3 as (V3 & _). cbn. auto.
Qed.
