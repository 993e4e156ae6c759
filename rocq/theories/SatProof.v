(** Sign and stability of the robustness. *)
From Coq Require Import List String QArith Qcanon Bool Classical_Prop.
From Verif Require Import Num Base Signal QcTac Robust Transducer Spec StlSpec SatSpec SigProof Lip ReadProof TreeRob StlClaims UntilTree.
Import ListNotations.
Local Open Scope Qc_scope.

Lemma sup_pos : forall g lo hi v, is_sup g lo hi v -> 0 < v -> exists u, lo <= u /\ u <= hi /\ 0 < g u.
Proof.
  intros g lo hi v [_ S] V. apply NNPP. intros N. assert (v <= 0); [|qlra]. apply S. intros u U1 U2.
  destruct (Qclt_le_dec 0 (g u)); auto. exfalso. apply N. eauto.
Qed.
Lemma inf_neg : forall g lo hi v, is_inf g lo hi v -> v < 0 -> ~ (forall u, lo <= u -> u <= hi -> 0 <= g u).
Proof. intros g lo hi v [_ S] V N. apply S in N. qlra. Qed.

Section Sign.
Variables (weak : bool) (cst : option string -> Qc -> Qc) (val : bound Qc -> Qc) (data : list (list Qc)).
Hypothesis R : rising (column data 0).

Lemma sign : forall f t v, rob cst val data f t v ->
  (0 < v -> holds weak cst val data f t) /\ (v < 0 -> ~ holds weak cst val data f t).
Proof.
  induction f; intros t x H; cbn [rob holds] in *; try contradiction.
  - destruct op; destruct H as (a & b & A & B & ->); (split; [intros P; exists a, b; repeat split; auto; destruct weak; qlra|]);
      intros P (a' & b' & A' & B' & L); rewrite (expr_unique cst data R _ _ _ _ A' A), (expr_unique cst data R _ _ _ _ B' B) in L;
      destruct weak; qlra.
  - destruct H as (w & H & ->). destruct (IHf _ _ H) as [H1 H2]. split; intros P.
    + apply H2. qlra.
    + intros N. apply N, H1. qlra.
  - destruct H as (a & b & A & B & ->). destruct (IHf1 _ _ A) as [A1 A2]. destruct (IHf2 _ _ B) as [B1 B2].
    destruct (qmin_cases a b) as [[-> ?]|[-> ?]]; (split; intros P; [split; [apply A1|apply B1]; qlra|]); intros [K1 K2]; [apply A2|apply B2]; auto.
  - destruct H as (a & b & A & B & ->). destruct (IHf1 _ _ A) as [A1 A2]. destruct (IHf2 _ _ B) as [B1 B2].
    destruct (qmax_cases a b) as [[-> ?]|[-> ?]]; (split; intros P; [auto|]); intros [K|K]; revert K; first [apply A2|apply B2]; qlra.
  - destruct H as (a & b & A & B & ->). destruct (IHf1 _ _ A) as [A1 A2]. destruct (IHf2 _ _ B) as [B1 B2].
    destruct (qmax_cases (- a) b) as [[-> ?]|[-> ?]]; split; intros P.
    + intros K. exfalso. apply A2; auto. qlra.
    + intros K. apply B2; [qlra|]. apply K, A1. qlra.
    + intros _. apply B1; auto.
    + intros K. apply B2; [auto|]. apply K, A1. qlra.
  - destruct H as (g & G & S). split; intros P.
    + destruct (sup_pos _ _ _ _ S P) as (u & U1 & U2 & U3). exists u. repeat split; auto. apply (IHf u (g u)); auto.
    + intros (u & U1 & U2 & K). revert K. apply (IHf u (g u)); auto. destruct S as [S _]. specialize (S u U1 U2). qlra.
  - destruct H as (g & G & S). split; intros P.
    + intros u U1 U2. apply (IHf u (g u)); auto. destruct S as [S _]. specialize (S u U1 U2). qlra.
    + intros K. apply (inf_neg _ _ _ _ S P). intros u U1 U2. destruct (Qclt_le_dec (g u) 0) as [C|C]; auto.
      exfalso. apply (IHf u (g u)); auto.
  - destruct H as (gl & gr & h & L & Rr & Hh & S). split; intros P.
    + destruct (sup_pos _ _ _ _ S P) as (u & U1 & U2 & U3).
      assert (P1 : 0 < gr u) by (destruct (qmin_cases (gr u) (h u)) as [[E ?]|[E ?]]; rewrite E in U3; qlra).
      assert (P2 : 0 < h u) by (destruct (qmin_cases (gr u) (h u)) as [[E ?]|[E ?]]; rewrite E in U3; qlra).
      exists u. split; [auto|]. split; [auto|]. split; [apply (IHf2 u (gr u)); auto|].
      intros w W1 W2. destruct (Hh u U1 U2) as [Hh1 _]. specialize (Hh1 w W1 W2).
      apply (IHf1 w (gl w)); [apply L; qlra|qlra].
    + intros (u & U1 & U2 & K1 & K2). destruct S as [S _]. specialize (S u U1 U2). cbn beta in S.
      assert (N1 : 0 <= gr u).
      { destruct (Qclt_le_dec (gr u) 0) as [C|C]; auto. exfalso. apply (IHf2 u (gr u)); auto. }
      assert (N2 : h u < 0) by (destruct (qmin_cases (gr u) (h u)) as [[E ?]|[E ?]]; rewrite E in S; qlra).
      apply (inf_neg _ _ _ _ (Hh u U1 U2) N2). intros w W1 W2.
      destruct (Qclt_le_dec (gl w) 0) as [C|C]; auto. exfalso. apply (IHf1 w (gl w)); auto. apply L; qlra.
Qed.
End Sign.

(** ** Stability *)
Definition close (d x y : Qc) : Prop := x - y <= d /\ y - x <= d.

Lemma close_sym : forall d x y, close d x y -> close d y x.
Proof. intros d x y [A B]. split; auto. Qed.
Lemma close_mono : forall d d' x y, d <= d' -> close d x y -> close d' x y.
Proof. intros d d' x y D [A B]. split; qlra. Qed.
Lemma close_min : forall d a b a' b', close d a a' -> close d b b' -> close d (qmin a b) (qmin a' b').
Proof.
  intros d a b a' b' [A1 A2] [B1 B2]. destruct (qmin_cases a b) as [[-> ?]|[-> ?]]; destruct (qmin_cases a' b') as [[-> ?]|[-> ?]]; split; qlra.
Qed.
Lemma close_max : forall d a b a' b', close d a a' -> close d b b' -> close d (qmax a b) (qmax a' b').
Proof.
  intros d a b a' b' [A1 A2] [B1 B2]. destruct (qmax_cases a b) as [[-> ?]|[-> ?]]; destruct (qmax_cases a' b') as [[-> ?]|[-> ?]]; split; qlra.
Qed.
Lemma close_neg : forall d a b, close d a b -> close d (- a) (- b).
Proof. intros d a b [A B]. split; qlra. Qed.
Lemma sup_le_close : forall d g g' lo hi v v', (forall u, lo <= u -> u <= hi -> close d (g u) (g' u)) ->
  is_sup g lo hi v -> is_sup g' lo hi v' -> v - v' <= d.
Proof.
  intros d g g' lo hi v v' C [_ S] [S' _]. assert (v <= v' + d); [|qlra]. apply S. intros u U1 U2.
  specialize (C u U1 U2). destruct C. specialize (S' u U1 U2). qlra.
Qed.
Lemma close_sup : forall d g g' lo hi v v', (forall u, lo <= u -> u <= hi -> close d (g u) (g' u)) ->
  is_sup g lo hi v -> is_sup g' lo hi v' -> close d v v'.
Proof.
  intros d g g' lo hi v v' C S S'. split; [eapply sup_le_close; eauto|].
  eapply sup_le_close; [|exact S'|exact S]. intros u U1 U2. apply close_sym; auto.
Qed.
Lemma inf_le_close : forall d g g' lo hi v v', (forall u, lo <= u -> u <= hi -> close d (g u) (g' u)) ->
  is_inf g lo hi v -> is_inf g' lo hi v' -> v - v' <= d.
Proof.
  intros d g g' lo hi v v' C [S _] [_ S']. assert (v - d <= v'); [|qlra]. apply S'. intros u U1 U2.
  specialize (C u U1 U2). destruct C. specialize (S u U1 U2). qlra.
Qed.
Lemma close_inf : forall d g g' lo hi v v', (forall u, lo <= u -> u <= hi -> close d (g u) (g' u)) ->
  is_inf g lo hi v -> is_inf g' lo hi v' -> close d v v'.
Proof.
  intros d g g' lo hi v v' C S S'. split; [eapply inf_le_close; eauto|].
  eapply inf_le_close; [|exact S'|exact S]. intros u U1 U2. apply close_sym; auto.
Qed.

Lemma close_line : forall d t1 t2 u v1 v2 w1 w2, t1 <= u -> u <= t2 -> t1 < t2 -> close d v1 w1 -> close d v2 w2 ->
  close d (v1 + (v2 - v1) / (t2 - t1) * (u - t1)) (w1 + (w2 - w1) / (t2 - t1) * (u - t1)).
Proof.
  intros d t1 t2 u v1 v2 w1 w2 U1 U2 U3 [A1 A2] [B1 B2].
  set (k := (u - t1) / (t2 - t1)).
  assert (K : k * (t2 - t1) = u - t1) by (unfold k; field; intro; qlra).
  assert (K1 : 0 <= k) by (destruct (Qclt_le_dec k 0); auto; exfalso; qnra).
  assert (K2 : k <= 1) by (destruct (Qclt_le_dec 1 k); auto; exfalso; qnra).
  assert (E : forall x y, x + (y - x) / (t2 - t1) * (u - t1) = x + (y - x) * k) by (intros x y; unfold k; field; intro; qlra).
  rewrite !E. clear E K. split; qnra.
Qed.

Section Near.
Variables (cst : option string -> Qc -> Qc) (val : bound Qc -> Qc) (d : Qc) (data data' : list (list Qc)).
Hypothesis N : near d data data'.
Hypothesis R : rising (column data 0).
Hypothesis D : 0 <= d.

Lemma near_rising : rising (column data' 0).
Proof.
  eapply rising_times; [|exact R]. rewrite !times_column. clear R. induction N as [|r r' l l' [A _] F IH]; [reflexivity|].
  cbn [map]. rewrite A, (IH F). reflexivity.
Qed.
Lemma interp_two : forall t1 v1 t2 v2 l u, interp ((t1, v1) :: (t2, v2) :: l) u =
  if Qclt_le_dec t1 u then if Qclt_le_dec t2 u then interp ((t2, v2) :: l) u else v1 + (v2 - v1) / (t2 - t1) * (u - t1) else v1.
Proof. reflexivity. Qed.
Lemma interp_near : forall c u, (0 < c)%nat -> close d (interp (column data c) u) (interp (column data' c) u).
Proof.
  intros c u C. revert R. clear - N C D. revert N. intros N0. induction N0 as [|r r' l l' [A B] F IH]; intros R.
  - cbn. split; qlra.
  - destruct F as [|r2 r2' l l' [A2 B2] F].
    + cbn [column map interp]. apply B; auto.
    + cbn [column map] in *. rewrite !interp_two. rewrite <- A, <- A2.
      destruct (Qclt_le_dec (row_time r) u); [|apply B; auto].
      destruct R as [R1 R2]. destruct (Qclt_le_dec (row_time r2) u).
      * rewrite A2 at 2. exact (IH R2).
      * apply close_line; [apply Qclt_le_weak; auto|auto|inversion R1; subst; auto|exact (B c C)|exact (B2 c C)].
Qed.
Lemma signal_near : forall c t v v', (0 < c)%nat -> linear (column data c) t v -> linear (column data' c) t v' -> close d v v'.
Proof.
  intros c t v v' C L L'. apply linear_interp in L; [|apply column_rising; auto]. apply linear_interp in L'; [|apply column_rising, near_rising].
  subst. apply interp_near; auto.
Qed.

Lemma const_expr : forall f dat t v, fixed f -> expr cst dat f t v -> v = const_value cst f.
Proof.
  induction f; intros dat t x F H; cbn [fixed expr const_value operand] in *; try contradiction; auto.
  - destruct H as (a & H & ->). rewrite (IHf _ _ _ F H). reflexivity.
  - destruct H as (a & b & H1 & H2 & ->). rewrite (IHf1 _ _ _ (proj1 F) H1), (IHf2 _ _ _ (proj2 F) H2). reflexivity.
  - destruct H as (a & b & H1 & H2 & ->). rewrite (IHf1 _ _ _ (proj1 F) H1), (IHf2 _ _ _ (proj2 F) H2). reflexivity.
  - destruct H as (a & b & H1 & H2 & ->). rewrite (IHf1 _ _ _ (proj1 F) H1), (IHf2 _ _ _ (proj2 F) H2). reflexivity.
Qed.
Lemma magnitude_nonneg : forall x, 0 <= magnitude x.
Proof. intros x. unfold magnitude. destruct (qmax_cases x (- x)) as [[-> ?]|[-> ?]]; qlra. Qed.
Lemma gain_fixed : forall f, fixed f -> gain cst f = 0.
Proof.
  induction f; intros F; cbn [fixed gain] in *; try contradiction; auto; try destruct F as [F1 F2]; rewrite ?IHf1, ?IHf2 by auto; ring.
Qed.
Lemma close_mult : forall e a b k, close e a b -> close (magnitude k * e) (k * a) (k * b).
Proof.
  intros e a b k [A B]. unfold magnitude. destruct (qmax_cases k (- k)) as [[-> ?]|[-> ?]]; split; qnra.
Qed.
Lemma expr_near : forall w f t v v', affine f -> expression w f -> expr cst data f t v -> expr cst data' f t v' ->
  close (gain cst f * d) v v'.
Proof.
  intros w. induction f; intros t x y F X H H'; cbn [affine expression expr operand gain] in *; try contradiction.
  - replace (1 * d) with d by ring. eapply signal_near; [apply X|exact H|exact H'].
  - subst. split; qlra.
  - destruct H as (a & H & ->). destruct H' as (a' & H' & ->). rewrite (const_expr _ _ _ _ F H), (const_expr _ _ _ _ F H').
    rewrite gain_fixed by auto. split; qlra.
  - destruct F as [F1 F2], X as [X1 X2]. destruct H as (a & b & H1 & H2 & ->). destruct H' as (a' & b' & H1' & H2' & ->).
    destruct (IHf1 _ _ _ F1 X1 H1 H1'), (IHf2 _ _ _ F2 X2 H2 H2'). replace ((gain cst f1 + gain cst f2) * d) with (gain cst f1 * d + gain cst f2 * d) by ring.
    split; qlra.
  - destruct F as [F1 F2], X as [X1 X2]. destruct H as (a & b & H1 & H2 & ->). destruct H' as (a' & b' & H1' & H2' & ->).
    destruct (IHf1 _ _ _ F1 X1 H1 H1'), (IHf2 _ _ _ F2 X2 H2 H2'). replace ((gain cst f1 + gain cst f2) * d) with (gain cst f1 * d + gain cst f2 * d) by ring.
    split; qlra.
  - destruct X as [X1 X2]. destruct H as (a & b & H1 & H2 & ->). destruct H' as (a' & b' & H1' & H2' & ->).
    destruct F as [[F1 F2]|[F1 F2]].
    + rewrite (const_expr _ _ _ _ F1 H1), (const_expr _ _ _ _ F1 H1'). rewrite (gain_fixed _ F1).
      replace ((magnitude (const_value cst f1) * gain cst f2 + 0 * magnitude (const_value cst f2)) * d)
        with (magnitude (const_value cst f1) * (gain cst f2 * d)) by ring.
      apply close_mult. eapply IHf2; eauto.
    + rewrite (const_expr _ _ _ _ F2 H2), (const_expr _ _ _ _ F2 H2'). rewrite (gain_fixed _ F2).
      replace ((magnitude (const_value cst f1) * 0 + gain cst f1 * magnitude (const_value cst f2)) * d)
        with (magnitude (const_value cst f2) * (gain cst f1 * d)) by ring.
      rewrite (Qcmult_comm a), (Qcmult_comm a'). apply close_mult. eapply IHf1; eauto.
Qed.

Lemma max_mult : forall a b, qmax a b * d = qmax (a * d) (b * d).
Proof.
  intros a b. destruct (qmax_cases a b) as [[-> ?]|[-> ?]]; destruct (qmax_cases (a * d) (b * d)) as [[-> ?]|[-> ?]]; auto; qnra.
Qed.
Lemma close_l : forall a b x y, close (a * d) x y -> close (qmax a b * d) x y.
Proof. intros a b x y. apply close_mono. destruct (qmax_cases a b) as [[-> ?]|[-> ?]]; qnra. Qed.
Lemma close_r : forall a b x y, close (b * d) x y -> close (qmax a b * d) x y.
Proof. intros a b x y. apply close_mono. destruct (qmax_cases a b) as [[-> ?]|[-> ?]]; qnra. Qed.

Lemma rob_near : forall w f t v v', linear_atoms w f -> rob cst val data f t v -> rob cst val data' f t v' ->
  close (gain cst f * d) v v'.
Proof.
  intros w. induction f; intros t x y F H H'; cbn [linear_atoms rob gain] in *; try contradiction.
  - destruct F as ((X1 & X2) & F1 & F2).
    replace ((gain cst f1 + gain cst f2) * d) with (gain cst f1 * d + gain cst f2 * d) by ring.
    destruct op; destruct H as (a & b & H1 & H2 & ->); destruct H' as (a' & b' & H1' & H2' & ->);
      destruct (expr_near _ _ _ _ _ F1 X1 H1 H1'), (expr_near _ _ _ _ _ F2 X2 H2 H2'); split; qlra.
  - destruct H as (a & H & ->). destruct H' as (a' & H' & ->). apply close_neg. eauto.
  - destruct F as [F1 F2]. destruct H as (a & b & H1 & H2 & ->). destruct H' as (a' & b' & H1' & H2' & ->).
    apply close_min; [apply close_l|apply close_r]; eauto.
  - destruct F as [F1 F2]. destruct H as (a & b & H1 & H2 & ->). destruct H' as (a' & b' & H1' & H2' & ->).
    apply close_max; [apply close_l|apply close_r]; eauto.
  - destruct F as [F1 F2]. destruct H as (a & b & H1 & H2 & ->). destruct H' as (a' & b' & H1' & H2' & ->).
    apply close_max; [apply close_neg, close_l|apply close_r]; eauto.
  - destruct H as (g & G & S). destruct H' as (g' & G' & S'). eapply close_sup; [|exact S|exact S']. intros u U1 U2. eauto.
  - destruct H as (g & G & S). destruct H' as (g' & G' & S'). eapply close_inf; [|exact S|exact S']. intros u U1 U2. eauto.
  - destruct F as [F1 F2]. destruct H as (gl & gr & h & L & Rr & I & S). destruct H' as (gl' & gr' & h' & L' & Rr' & I' & S').
    eapply close_sup; [|exact S|exact S']. intros u U1 U2. apply close_min; [apply close_r; eauto|].
    eapply close_inf; [|exact (I u U1 U2)|exact (I' u U1 U2)]. intros w' W1 W2. apply close_l. eapply IHf1; [exact F1|apply L|apply L']; qlra.
Qed.

Hypothesis NE : data' <> [].
Variables (weak : bool) (w : nat).

Lemma expr_near_exists : forall f t v, affine f -> expression w f -> expr cst data f t v -> exists v', expr cst data' f t v'.
Proof.
  assert (K : forall f t, expression w f -> exists v, expr cst data' f t v).
  { induction f; intros t X; cbn [expression expr operand] in *; try contradiction; eauto.
    - exists (interp (column data' col) t). apply interp_linear; [|apply column_rising, near_rising].
      unfold column. intros C. apply map_eq_nil in C. auto.
    - destruct (IHf t X) as (a & A). eauto.
    - destruct X as [X1 X2]. destruct (IHf1 t X1), (IHf2 t X2). do 3 eexists. repeat split; eauto.
    - destruct X as [X1 X2]. destruct (IHf1 t X1), (IHf2 t X2). do 3 eexists. repeat split; eauto.
    - destruct X as [X1 X2]. destruct (IHf1 t X1), (IHf2 t X2). do 3 eexists. repeat split; eauto. }
  intros f t v _ X _. auto.
Qed.

Lemma sup_above : forall k g lo hi v, is_sup g lo hi v -> k < v -> exists u, lo <= u /\ u <= hi /\ k < g u.
Proof.
  intros k g lo hi v [_ S] V. apply NNPP. intros C. assert (v <= k); [|qlra]. apply S. intros u U1 U2.
  destruct (Qclt_le_dec k (g u)); auto. exfalso. apply C. eauto.
Qed.
Lemma inf_below : forall k g lo hi v, is_inf g lo hi v -> v < k -> ~ (forall u, lo <= u -> u <= hi -> k <= g u).
Proof. intros k g lo hi v [_ S] V C. apply S in C. qlra. Qed.

Lemma holds_near : forall f t v k, linear_atoms w f -> gain cst f * d <= k -> rob cst val data f t v ->
  (k < v -> holds weak cst val data' f t) /\ (v < - k -> ~ holds weak cst val data' f t).
Proof.
  assert (ML : forall a b k, qmax a b * d <= k -> a * d <= k /\ b * d <= k).
  { intros a b k. destruct (qmax_cases a b) as [[-> ?]|[-> ?]]; split; qnra. }
  induction f; intros t x k F G H; cbn [linear_atoms rob holds gain] in *; try contradiction.
  - pose proof F as ((X1 & X2) & F1 & F2).
    assert (Ex : exists a' b', expr cst data' f1 t a' /\ expr cst data' f2 t b').
    { destruct op; destruct H as (a & b & A & B & ->); destruct (expr_near_exists _ _ _ F1 X1 A) as (a' & A'); destruct (expr_near_exists _ _ _ F2 X2 B) as (b' & B'); eauto. }
    destruct Ex as (a' & b' & A' & B').
    assert (V : close (gain cst (FAtom f1 op f2) * d) x (match op with GREATERTHAN => a' - b' | LESSTHAN => b' - a' end)).
    { apply (rob_near w (FAtom f1 op f2) t); auto; destruct op; cbn [rob]; eauto. }
    cbn [gain] in V. destruct V as [V1 V2]. split.
    + intros P. exists a', b'. repeat split; auto. destruct op; destruct weak; qlra.
    + intros P (a'' & b'' & A'' & B'' & L).
      rewrite (expr_unique cst data' near_rising _ _ _ _ A'' A'), (expr_unique cst data' near_rising _ _ _ _ B'' B') in L.
      destruct op; destruct weak; qlra.
  - destruct H as (y & H & ->). destruct (IHf _ _ _ F G H) as [H1 H2]. split; intros P.
    + apply H2. qlra.
    + intros C. apply C, H1. qlra.
  - destruct F as [F1 F2]. apply ML in G. destruct G as [G1 G2]. destruct H as (a & b & A & B & ->).
    destruct (IHf1 _ _ _ F1 G1 A) as [A1 A2]. destruct (IHf2 _ _ _ F2 G2 B) as [B1 B2].
    destruct (qmin_cases a b) as [[-> ?]|[-> ?]]; (split; intros P; [split; [apply A1|apply B1]; qlra|]); intros [K1 K2]; [apply A2|apply B2]; auto.
  - destruct F as [F1 F2]. apply ML in G. destruct G as [G1 G2]. destruct H as (a & b & A & B & ->).
    destruct (IHf1 _ _ _ F1 G1 A) as [A1 A2]. destruct (IHf2 _ _ _ F2 G2 B) as [B1 B2].
    destruct (qmax_cases a b) as [[-> ?]|[-> ?]]; (split; intros P; [auto|]); intros [K|K]; revert K; first [apply A2|apply B2]; qlra.
  - destruct F as [F1 F2]. apply ML in G. destruct G as [G1 G2]. destruct H as (a & b & A & B & ->).
    destruct (IHf1 _ _ _ F1 G1 A) as [A1 A2]. destruct (IHf2 _ _ _ F2 G2 B) as [B1 B2].
    destruct (qmax_cases (- a) b) as [[-> ?]|[-> ?]]; split; intros P.
    + intros K. exfalso. apply A2; auto. qlra.
    + intros K. apply B2; [qlra|]. apply K, A1. qlra.
    + intros _. apply B1; auto.
    + intros K. apply B2; [auto|]. apply K, A1. qlra.
  - destruct H as (g & Gg & S). split; intros P.
    + destruct (sup_above _ _ _ _ _ S P) as (u & U1 & U2 & U3). exists u. repeat split; auto. apply (IHf u (g u) k); auto.
    + intros (u & U1 & U2 & K). revert K. apply (IHf u (g u) k); auto. destruct S as [S _]. specialize (S u U1 U2). qlra.
  - destruct H as (g & Gg & S). split; intros P.
    + intros u U1 U2. apply (IHf u (g u) k); auto. destruct S as [S _]. specialize (S u U1 U2). qlra.
    + intros K. apply (inf_below _ _ _ _ _ S P). intros u U1 U2. destruct (Qclt_le_dec (g u) (- k)) as [C|C]; auto.
      exfalso. apply (IHf u (g u) k); auto.
  - destruct F as [F1 F2]. apply ML in G. destruct G as [G1 G2]. destruct H as (gl & gr & h & L & Rr & Hh & S). split; intros P.
    + destruct (sup_above _ _ _ _ _ S P) as (u & U1 & U2 & U3).
      assert (P1 : k < gr u) by (destruct (qmin_cases (gr u) (h u)) as [[E ?]|[E ?]]; rewrite E in U3; qlra).
      assert (P2 : k < h u) by (destruct (qmin_cases (gr u) (h u)) as [[E ?]|[E ?]]; rewrite E in U3; qlra).
      exists u. split; [auto|]. split; [auto|]. split; [apply (IHf2 u (gr u) k); auto|].
      intros z W1 W2. destruct (Hh u U1 U2) as [Hh1 _]. specialize (Hh1 z W1 W2).
      apply (IHf1 z (gl z) k); auto; [apply L; qlra|qlra].
    + intros (u & U1 & U2 & K1 & K2). destruct S as [S _]. specialize (S u U1 U2). cbn beta in S.
      assert (N1 : - k <= gr u).
      { destruct (Qclt_le_dec (gr u) (- k)) as [C|C]; auto. exfalso. apply (IHf2 u (gr u) k); auto. }
      assert (N2 : h u < - k) by (destruct (qmin_cases (gr u) (h u)) as [[E ?]|[E ?]]; rewrite E in S; qlra).
      apply (inf_below _ _ _ _ _ (Hh u U1 U2) N2). intros z W1 W2.
      destruct (Qclt_le_dec (gl z) (- k)) as [C|C]; auto. exfalso. apply (IHf1 z (gl z) k); auto. apply L; qlra.
Qed.
End Near.
