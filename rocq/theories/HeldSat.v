(** Sign and stability of the robustness over held signals. *)
From Coq Require Import List String QArith Qcanon Bool Classical_Prop.
From Verif Require Import Num Base Signal QcTac Robust Transducer Spec StlSpec SatSpec SatProof SigProof Lip ReadProof TreeProof TreeRob StlClaims UntilTree StepSpec StepRead StepTree StepClaims StepUntilSpec StepUntilTree HeldSatSpec.
Import ListNotations.
Local Open Scope Qc_scope.

Section Sign.
Variables (weak : bool) (cst : option string -> Qc -> Qc) (val : bound Qc -> Qc) (data : list (list Qc)).
Hypothesis R : forall c, rising (column data c).

Lemma held_sign : forall f t v, rob_of held cst val data f t v ->
  (0 < v -> holds_of held weak cst val data f t) /\ (v < 0 -> ~ holds_of held weak cst val data f t).
Proof.
  induction f; intros t x H; cbn [rob_of holds_of] in *; try contradiction.
  - destruct op; destruct H as (a & b & A & B & ->); (split; [intros P; exists a, b; repeat split; auto; destruct weak; qlra|]);
      intros P (a' & b' & A' & B' & L); rewrite (held_expr_unique cst data R _ _ _ _ A' A), (held_expr_unique cst data R _ _ _ _ B' B) in L;
      destruct weak; qlra.
  - destruct H as (w & H & ->). destruct (IHf _ _ H) as [H1 H2]. split; intros P.
    + apply H2. qlra.
    + intros N. apply N, H1. qlra.
  - destruct H as (a & b & A & B & ->). destruct (IHf1 _ _ A) as [A1 A2]. destruct (IHf2 _ _ B) as [B1 B2].
    destruct (qmin_cases a b) as [[-> ?]|[-> ?]]; (split; intros P; [split; [apply A1|apply B1]; qlra|]); intros [K1 K2]; [apply A2|apply B2]; auto.
  - destruct H as (a & b & A & B & ->). destruct (IHf1 _ _ A) as [A1 A2]. destruct (IHf2 _ _ B) as [B1 B2].
    destruct (qmax_cases a b) as [[-> ?]|[-> ?]]; (split; intros P; [auto|]); intros [K|K]; revert K; first [apply A2|apply B2]; qlra.
  - destruct H as (a & b & A & B & ->). destruct (IHf1 _ _ A) as [A1 A2]. destruct (IHf2 _ _ B) as [B1 B2].
    destruct (qmax_cases (- a) b) as [[-> ?]|[-> ?]]; split; intros P.
    + intros K. exfalso. apply A2; auto. qlra.
    + intros K. apply B2; [qlra|]. apply K, A1. qlra.
    + intros _. apply B1; auto.
    + intros K. apply B2; [auto|]. apply K, A1. qlra.
  - destruct H as (g & G & S). split; intros P.
    + destruct (sup_pos _ _ _ _ S P) as (u & U1 & U2 & U3). exists u. repeat split; auto. apply (IHf u (g u)); auto.
    + intros (u & U1 & U2 & K). revert K. apply (IHf u (g u)); auto. destruct S as [S _]. specialize (S u U1 U2). qlra.
  - destruct H as (g & G & S). split; intros P.
    + intros u U1 U2. apply (IHf u (g u)); auto. destruct S as [S _]. specialize (S u U1 U2). qlra.
    + intros K. apply (inf_neg _ _ _ _ S P). intros u U1 U2. destruct (Qclt_le_dec (g u) 0) as [C|C]; auto.
      exfalso. apply (IHf u (g u)); auto.
  - destruct H as (gl & gr & h & L & Rr & Hh & S). split; intros P.
    + destruct (sup_pos _ _ _ _ S P) as (u & U1 & U2 & U3).
      assert (P1 : 0 < gr u) by (destruct (qmin_cases (gr u) (h u)) as [[E ?]|[E ?]]; rewrite E in U3; qlra).
      assert (P2 : 0 < h u) by (destruct (qmin_cases (gr u) (h u)) as [[E ?]|[E ?]]; rewrite E in U3; qlra).
      exists u. split; [auto|]. split; [auto|]. split; [apply (IHf2 u (gr u)); auto|].
      intros w W1 W2. destruct (Hh u U1 U2) as [Hh1 _]. specialize (Hh1 w W1 W2).
      apply (IHf1 w (gl w)); [apply L; qlra|qlra].
    + intros (u & U1 & U2 & K1 & K2). destruct S as [S _]. specialize (S u U1 U2). cbn beta in S.
      assert (N1 : 0 <= gr u).
      { destruct (Qclt_le_dec (gr u) 0) as [C|C]; auto. exfalso. apply (IHf2 u (gr u)); auto. }
      assert (N2 : h u < 0) by (destruct (qmin_cases (gr u) (h u)) as [[E ?]|[E ?]]; rewrite E in S; qlra).
      apply (inf_neg _ _ _ _ (Hh u U1 U2) N2). intros w W1 W2.
      destruct (Qclt_le_dec (gl w) 0) as [C|C]; auto. exfalso. apply (IHf1 w (gl w)); auto. apply L; qlra.
Qed.
End Sign.

Section Near.
Variables (cst : option string -> Qc -> Qc) (val : bound Qc -> Qc) (d : Qc) (data data' : list (list Qc)).
Hypothesis N : near d data data'.
Hypothesis R : forall c, rising (column data c).
Hypothesis D : 0 <= d.

Lemma near_rising : forall c, rising (column data' c).
Proof.
  intros c. eapply rising_times; [|exact (R c)]. rewrite !times_column. clear R. induction N as [|r r' l l' [A _] F IH]; [reflexivity|].
  cbn [map]. rewrite A, (IH F). reflexivity.
Qed.
Lemma hold_near : forall c u, (0 < c)%nat -> close d (hold (column data c) u) (hold (column data' c) u).
Proof.
  intros c u C. clear R. induction N as [|r r' l l' [A B] F IH].
  - cbn. split; qlra.
  - destruct F as [|r2 r2' l l' [A2 B2] F]; [cbn [column map hold]; apply B; auto|].
    cbn [column map] in *. rewrite !hold_cons, <- A2. destruct (Qclt_le_dec u (row_time r2)); [apply B; auto|].
    rewrite A2 at 2. apply IH. constructor; auto.
Qed.
Lemma near_nil : data <> [] -> data' <> [].
Proof. intros H K. subst. inversion N. congruence. Qed.
Lemma signal_near : forall c t v v', (0 < c)%nat -> held (column data c) t v -> held (column data' c) t v' -> close d v v'.
Proof.
  intros c t v v' C L L'. assert (NN : forall (l : list (list Qc)), l <> [] -> column l c <> []) by (intros l H K; apply map_eq_nil in K; auto).
  destruct data as [|r0 rest] eqn:Ed.
  { exfalso. destruct L as [[l1 t1 v1 l2 K _ _]|(t0 & l' & K & _)]; [destruct l1; discriminate K|discriminate K]. }
  rewrite <- Ed in *. assert (ND : data <> []) by (rewrite Ed; discriminate).
  apply held_hold in L; [|apply NN; auto|apply R]. apply held_hold in L'; [|apply NN, near_nil; auto|apply near_rising].
  subst v v'. apply hold_near; auto.
Qed.

Lemma const_expr : forall f dat t v, fixed f -> expr_of held cst dat f t v -> v = const_value cst f.
Proof.
  induction f; intros dat t x F H; cbn [fixed expr_of const_value] in *; try contradiction; auto.
  - destruct H as (a & H & ->). rewrite (IHf _ _ _ F H). reflexivity.
  - destruct H as (a & b & H1 & H2 & ->). rewrite (IHf1 _ _ _ (proj1 F) H1), (IHf2 _ _ _ (proj2 F) H2). reflexivity.
  - destruct H as (a & b & H1 & H2 & ->). rewrite (IHf1 _ _ _ (proj1 F) H1), (IHf2 _ _ _ (proj2 F) H2). reflexivity.
  - destruct H as (a & b & H1 & H2 & ->). rewrite (IHf1 _ _ _ (proj1 F) H1), (IHf2 _ _ _ (proj2 F) H2). reflexivity.
Qed.
Lemma magnitude_nonneg : forall x, 0 <= magnitude x.
Proof. intros x. unfold magnitude. destruct (qmax_cases x (- x)) as [[-> ?]|[-> ?]]; qlra. Qed.
Lemma gain_fixed : forall f, fixed f -> gain cst f = 0.
Proof.
  induction f; intros F; cbn [fixed gain] in *; try contradiction; auto; try destruct F as [F1 F2]; rewrite ?IHf1, ?IHf2 by auto; ring.
Qed.
Lemma close_mult : forall e a b k, close e a b -> close (magnitude k * e) (k * a) (k * b).
Proof.
  intros e a b k [A B]. unfold magnitude. destruct (qmax_cases k (- k)) as [[-> ?]|[-> ?]]; split; qnra.
Qed.
Lemma expr_near : forall w f t v v', affine f -> expression w f -> expr_of held cst data f t v -> expr_of held cst data' f t v' ->
  close (gain cst f * d) v v'.
Proof.
  intros w. induction f; intros t x y F X H H'; cbn [affine expression expr_of gain] in *; try contradiction.
  - replace (1 * d) with d by ring. eapply signal_near; [apply X|exact H|exact H'].
  - subst. split; qlra.
  - destruct H as (a & H & ->). destruct H' as (a' & H' & ->). rewrite (const_expr _ _ _ _ F H), (const_expr _ _ _ _ F H').
    rewrite gain_fixed by auto. split; qlra.
  - destruct F as [F1 F2], X as [X1 X2]. destruct H as (a & b & H1 & H2 & ->). destruct H' as (a' & b' & H1' & H2' & ->).
    destruct (IHf1 _ _ _ F1 X1 H1 H1'), (IHf2 _ _ _ F2 X2 H2 H2'). replace ((gain cst f1 + gain cst f2) * d) with (gain cst f1 * d + gain cst f2 * d) by ring.
    split; qlra.
  - destruct F as [F1 F2], X as [X1 X2]. destruct H as (a & b & H1 & H2 & ->). destruct H' as (a' & b' & H1' & H2' & ->).
    destruct (IHf1 _ _ _ F1 X1 H1 H1'), (IHf2 _ _ _ F2 X2 H2 H2'). replace ((gain cst f1 + gain cst f2) * d) with (gain cst f1 * d + gain cst f2 * d) by ring.
    split; qlra.
  - destruct X as [X1 X2]. destruct H as (a & b & H1 & H2 & ->). destruct H' as (a' & b' & H1' & H2' & ->).
    destruct F as [[F1 F2]|[F1 F2]].
    + rewrite (const_expr _ _ _ _ F1 H1), (const_expr _ _ _ _ F1 H1'). rewrite (gain_fixed _ F1).
      replace ((magnitude (const_value cst f1) * gain cst f2 + 0 * magnitude (const_value cst f2)) * d)
        with (magnitude (const_value cst f1) * (gain cst f2 * d)) by ring.
      apply close_mult. eapply IHf2; eauto.
    + rewrite (const_expr _ _ _ _ F2 H2), (const_expr _ _ _ _ F2 H2'). rewrite (gain_fixed _ F2).
      replace ((magnitude (const_value cst f1) * 0 + gain cst f1 * magnitude (const_value cst f2)) * d)
        with (magnitude (const_value cst f2) * (gain cst f1 * d)) by ring.
      rewrite (Qcmult_comm a), (Qcmult_comm a'). apply close_mult. eapply IHf1; eauto.
Qed.

Lemma max_mult : forall a b, qmax a b * d = qmax (a * d) (b * d).
Proof.
  intros a b. destruct (qmax_cases a b) as [[-> ?]|[-> ?]]; destruct (qmax_cases (a * d) (b * d)) as [[-> ?]|[-> ?]]; auto; qnra.
Qed.
Lemma close_l : forall a b x y, close (a * d) x y -> close (qmax a b * d) x y.
Proof. intros a b x y. apply close_mono. destruct (qmax_cases a b) as [[-> ?]|[-> ?]]; qnra. Qed.
Lemma close_r : forall a b x y, close (b * d) x y -> close (qmax a b * d) x y.
Proof. intros a b x y. apply close_mono. destruct (qmax_cases a b) as [[-> ?]|[-> ?]]; qnra. Qed.

Lemma held_rob_near : forall w f t v v', linear_atoms w f -> rob_of held cst val data f t v -> rob_of held cst val data' f t v' ->
  close (gain cst f * d) v v'.
Proof.
  intros w. induction f; intros t x y F H H'; cbn [linear_atoms rob_of gain] in *; try contradiction.
  - destruct F as ((X1 & X2) & F1 & F2).
    replace ((gain cst f1 + gain cst f2) * d) with (gain cst f1 * d + gain cst f2 * d) by ring.
    destruct op; destruct H as (a & b & H1 & H2 & ->); destruct H' as (a' & b' & H1' & H2' & ->);
      destruct (expr_near _ _ _ _ _ F1 X1 H1 H1'), (expr_near _ _ _ _ _ F2 X2 H2 H2'); split; qlra.
  - destruct H as (a & H & ->). destruct H' as (a' & H' & ->). apply close_neg. eauto.
  - destruct F as [F1 F2]. destruct H as (a & b & H1 & H2 & ->). destruct H' as (a' & b' & H1' & H2' & ->).
    apply close_min; [apply close_l|apply close_r]; eauto.
  - destruct F as [F1 F2]. destruct H as (a & b & H1 & H2 & ->). destruct H' as (a' & b' & H1' & H2' & ->).
    apply close_max; [apply close_l|apply close_r]; eauto.
  - destruct F as [F1 F2]. destruct H as (a & b & H1 & H2 & ->). destruct H' as (a' & b' & H1' & H2' & ->).
    apply close_max; [apply close_neg, close_l|apply close_r]; eauto.
  - destruct H as (g & G & S). destruct H' as (g' & G' & S'). eapply close_sup; [|exact S|exact S']. intros u U1 U2. eauto.
  - destruct H as (g & G & S). destruct H' as (g' & G' & S'). eapply close_inf; [|exact S|exact S']. intros u U1 U2. eauto.
  - destruct F as [F1 F2]. destruct H as (gl & gr & h & L & Rr & I & S). destruct H' as (gl' & gr' & h' & L' & Rr' & I' & S').
    eapply close_sup; [|exact S|exact S']. intros u U1 U2. apply close_min; [apply close_r; eauto|].
    eapply close_inf; [|exact (I u U1 U2)|exact (I' u U1 U2)]. intros w' W1 W2. apply close_l. eapply IHf1; [exact F1|apply L|apply L']; qlra.
Qed.

Hypothesis NE : data' <> [].
Variables (weak : bool) (w : nat).

Lemma expr_near_exists : forall f t v, affine f -> expression w f -> expr_of held cst data f t v -> exists v', expr_of held cst data' f t v'.
Proof.
  assert (K : forall f t, expression w f -> exists v, expr_of held cst data' f t v).
  { induction f; intros t X; cbn [expression expr_of] in *; try contradiction; eauto.
    - exists (hold (column data' col) t). apply hold_held; [|apply near_rising].
      unfold column. intros C. apply map_eq_nil in C. auto.
    - destruct (IHf t X) as (a & A). eauto.
    - destruct X as [X1 X2]. destruct (IHf1 t X1), (IHf2 t X2). do 3 eexists. repeat split; eauto.
    - destruct X as [X1 X2]. destruct (IHf1 t X1), (IHf2 t X2). do 3 eexists. repeat split; eauto.
    - destruct X as [X1 X2]. destruct (IHf1 t X1), (IHf2 t X2). do 3 eexists. repeat split; eauto. }
  intros f t v _ X _. auto.
Qed.

Lemma sup_above : forall k g lo hi v, is_sup g lo hi v -> k < v -> exists u, lo <= u /\ u <= hi /\ k < g u.
Proof.
  intros k g lo hi v [_ S] V. apply NNPP. intros C. assert (v <= k); [|qlra]. apply S. intros u U1 U2.
  destruct (Qclt_le_dec k (g u)); auto. exfalso. apply C. eauto.
Qed.
Lemma inf_below : forall k g lo hi v, is_inf g lo hi v -> v < k -> ~ (forall u, lo <= u -> u <= hi -> k <= g u).
Proof. intros k g lo hi v [_ S] V C. apply S in C. qlra. Qed.

Lemma held_holds_near : forall f t v k, linear_atoms w f -> gain cst f * d <= k -> rob_of held cst val data f t v ->
  (k < v -> holds_of held weak cst val data' f t) /\ (v < - k -> ~ holds_of held weak cst val data' f t).
Proof.
  assert (ML : forall a b k, qmax a b * d <= k -> a * d <= k /\ b * d <= k).
  { intros a b k. destruct (qmax_cases a b) as [[-> ?]|[-> ?]]; split; qnra. }
  induction f; intros t x k F G H; cbn [linear_atoms rob_of holds_of gain] in *; try contradiction.
  - pose proof F as ((X1 & X2) & F1 & F2).
    assert (Ex : exists a' b', expr_of held cst data' f1 t a' /\ expr_of held cst data' f2 t b').
    { destruct op; destruct H as (a & b & A & B & ->); destruct (expr_near_exists _ _ _ F1 X1 A) as (a' & A'); destruct (expr_near_exists _ _ _ F2 X2 B) as (b' & B'); eauto. }
    destruct Ex as (a' & b' & A' & B').
    assert (V : close (gain cst (FAtom f1 op f2) * d) x (match op with GREATERTHAN => a' - b' | LESSTHAN => b' - a' end)).
    { apply (held_rob_near w (FAtom f1 op f2) t); auto; destruct op; cbn [rob_of]; eauto. }
    cbn [gain] in V. destruct V as [V1 V2]. split.
    + intros P. exists a', b'. repeat split; auto. destruct op; destruct weak; qlra.
    + intros P (a'' & b'' & A'' & B'' & L).
      rewrite (held_expr_unique cst data' near_rising _ _ _ _ A'' A'), (held_expr_unique cst data' near_rising _ _ _ _ B'' B') in L.
      destruct op; destruct weak; qlra.
  - destruct H as (y & H & ->). destruct (IHf _ _ _ F G H) as [H1 H2]. split; intros P.
    + apply H2. qlra.
    + intros C. apply C, H1. qlra.
  - destruct F as [F1 F2]. apply ML in G. destruct G as [G1 G2]. destruct H as (a & b & A & B & ->).
    destruct (IHf1 _ _ _ F1 G1 A) as [A1 A2]. destruct (IHf2 _ _ _ F2 G2 B) as [B1 B2].
    destruct (qmin_cases a b) as [[-> ?]|[-> ?]]; (split; intros P; [split; [apply A1|apply B1]; qlra|]); intros [K1 K2]; [apply A2|apply B2]; auto.
  - destruct F as [F1 F2]. apply ML in G. destruct G as [G1 G2]. destruct H as (a & b & A & B & ->).
    destruct (IHf1 _ _ _ F1 G1 A) as [A1 A2]. destruct (IHf2 _ _ _ F2 G2 B) as [B1 B2].
    destruct (qmax_cases a b) as [[-> ?]|[-> ?]]; (split; intros P; [auto|]); intros [K|K]; revert K; first [apply A2|apply B2]; qlra.
  - destruct F as [F1 F2]. apply ML in G. destruct G as [G1 G2]. destruct H as (a & b & A & B & ->).
    destruct (IHf1 _ _ _ F1 G1 A) as [A1 A2]. destruct (IHf2 _ _ _ F2 G2 B) as [B1 B2].
    destruct (qmax_cases (- a) b) as [[-> ?]|[-> ?]]; split; intros P.
    + intros K. exfalso. apply A2; auto. qlra.
    + intros K. apply B2; [qlra|]. apply K, A1. qlra.
    + intros _. apply B1; auto.
    + intros K. apply B2; [auto|]. apply K, A1. qlra.
  - destruct H as (g & Gg & S). split; intros P.
    + destruct (sup_above _ _ _ _ _ S P) as (u & U1 & U2 & U3). exists u. repeat split; auto. apply (IHf u (g u) k); auto.
    + intros (u & U1 & U2 & K). revert K. apply (IHf u (g u) k); auto. destruct S as [S _]. specialize (S u U1 U2). qlra.
  - destruct H as (g & Gg & S). split; intros P.
    + intros u U1 U2. apply (IHf u (g u) k); auto. destruct S as [S _]. specialize (S u U1 U2). qlra.
    + intros K. apply (inf_below _ _ _ _ _ S P). intros u U1 U2. destruct (Qclt_le_dec (g u) (- k)) as [C|C]; auto.
      exfalso. apply (IHf u (g u) k); auto.
  - destruct F as [F1 F2]. apply ML in G. destruct G as [G1 G2]. destruct H as (gl & gr & h & L & Rr & Hh & S). split; intros P.
    + destruct (sup_above _ _ _ _ _ S P) as (u & U1 & U2 & U3).
      assert (P1 : k < gr u) by (destruct (qmin_cases (gr u) (h u)) as [[E ?]|[E ?]]; rewrite E in U3; qlra).
      assert (P2 : k < h u) by (destruct (qmin_cases (gr u) (h u)) as [[E ?]|[E ?]]; rewrite E in U3; qlra).
      exists u. split; [auto|]. split; [auto|]. split; [apply (IHf2 u (gr u) k); auto|].
      intros z W1 W2. destruct (Hh u U1 U2) as [Hh1 _]. specialize (Hh1 z W1 W2).
      apply (IHf1 z (gl z) k); auto; [apply L; qlra|qlra].
    + intros (u & U1 & U2 & K1 & K2). destruct S as [S _]. specialize (S u U1 U2). cbn beta in S.
      assert (N1 : - k <= gr u).
      { destruct (Qclt_le_dec (gr u) (- k)) as [C|C]; auto. exfalso. apply (IHf2 u (gr u) k); auto. }
      assert (N2 : h u < - k) by (destruct (qmin_cases (gr u) (h u)) as [[E ?]|[E ?]]; rewrite E in S; qlra).
      apply (inf_below _ _ _ _ _ (Hh u U1 U2) N2). intros z W1 W2.
      destruct (Qclt_le_dec (gl z) (- k)) as [C|C]; auto. exfalso. apply (IHf1 z (gl z) k); auto. apply L; qlra.
Qed.
End Near.

Lemma held_verdict : forall w E t f s e weak, holding w E -> stands_for t f -> utimed (bound_value E) w f -> 0 <= s -> s <= e ->
  covers (bound_value E) (last_time (e_data E)) f e -> within_of held (eff E) (bound_value E) (e_data E) (e_M E) f ->
  uat_samples (bound_value E) (e_data E) f s e -> usettled held (eff E) (bound_value E) (e_data E) f s e ->
  forall v lo up, numbers (evaluate E t s e) = Ok (v, lo, up) ->
    (0 < v -> holds_of held weak (eff E) (bound_value E) (e_data E) f s) /\
    (v < 0 -> ~ holds_of held weak (eff E) (bound_value E) (e_data E) f s).
Proof.
  intros w E t f s e weak HE SF F H0 H1 C W A ST v lo up N. pose proof HE as (_ & _ & TR).
  apply held_sign; [apply (columns_rise w E TR)|]. destruct (held_until_claim w E t f s e HE SF F H0 H1 C W A ST) as [_ K]. eauto.
Qed.
Lemma held_margin : forall w E t f s e, holding w E -> stands_for t f -> utimed (bound_value E) w f -> linear_atoms w f -> 0 <= s -> s <= e ->
  covers (bound_value E) (last_time (e_data E)) f e -> within_of held (eff E) (bound_value E) (e_data E) (e_M E) f ->
  uat_samples (bound_value E) (e_data E) f s e -> usettled held (eff E) (bound_value E) (e_data E) f s e ->
  forall v lo up, numbers (evaluate E t s e) = Ok (v, lo, up) ->
  forall d data' weak, 0 <= d -> near d (e_data E) data' ->
    (gain (eff E) f * d < v -> holds_of held weak (eff E) (bound_value E) data' f s) /\
    (v < - (gain (eff E) f * d) -> ~ holds_of held weak (eff E) (bound_value E) data' f s).
Proof.
  intros w E t f s e HE SF F LA H0 H1 C W A ST v lo up N d data' weak D Nr. pose proof HE as (_ & _ & TR).
  pose proof (columns_rise w E TR) as R. destruct (held_until_claim w E t f s e HE SF F H0 H1 C W A ST) as [_ K].
  apply (held_holds_near (eff E) (bound_value E) d (e_data E) data' Nr R D) with (w := w); eauto; [|apply Qcle_refl].
  destruct TR as [ND _]. intros K'. subst. inversion Nr. congruence.
Qed.
