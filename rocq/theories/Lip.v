(** Lipschitz functions on rational intervals, used for values at right ends. *)
From Coq Require Import List QArith Qcanon Bool Lia.
From Verif Require Import Num Base Signal QcTac Spec Repr AndProof.
Import ListNotations.
Local Open Scope Qc_scope.

Definition lip (K : Qc) (f : Qc -> Qc) (lo hi : Qc) : Prop :=
  forall u v, lo <= u -> u <= v -> v <= hi ->
    f u - f v <= K * (v - u) /\ f v - f u <= K * (v - u).

Lemma lip_line : forall p lo hi, exists K, 0 <= K /\ lip K (line p) lo hi.
Proof.
  intros p lo hi. destruct (Qclt_le_dec (deriv p) 0) as [D|D].
  - exists (- deriv p). split; [qlra|]. intros u v H1 H2 H3. unfold line. split; qnra.
  - exists (deriv p). split; [qlra|]. intros u v H1 H2 H3. unfold line. split; qnra.
Qed.

Lemma lip_weaken : forall K K' f lo hi, K <= K' -> lip K f lo hi -> lip K' f lo hi.
Proof.
  intros K K' f lo hi H L u v H1 H2 H3. destruct (L u v H1 H2 H3) as [A B].
  assert (K * (v - u) <= K' * (v - u)) by qnra. split; qlra.
Qed.

Lemma lip_sub : forall K f lo hi lo' hi', lip K f lo hi -> lo <= lo' -> hi' <= hi -> lip K f lo' hi'.
Proof. intros K f lo hi lo' hi' L H1 H2 u v U1 U2 U3. apply L; qlra. Qed.

Lemma lip_ext : forall K f g lo hi, (forall u, lo <= u -> u <= hi -> f u = g u) -> lip K f lo hi -> lip K g lo hi.
Proof. intros K f g lo hi E L u v U1 U2 U3. rewrite <- !E; try qlra. apply L; auto. Qed.

Lemma lip_max2 : forall K K' : Qc, exists M, K <= M /\ K' <= M.
Proof. intros K K'. destruct (Qclt_le_dec K K'); [exists K'|exists K]; split; qlra. Qed.

Lemma qmin_cases : forall a b : Qc, (qmin a b = a /\ a <= b) \/ (qmin a b = b /\ b <= a).
Proof.
  intros a b. unfold qmin. destruct (Qclt_le_dec b a); [right|left]; split; auto; qlra.
Qed.
Lemma qmax_cases : forall a b : Qc, (qmax a b = a /\ b <= a) \/ (qmax a b = b /\ a <= b).
Proof.
  intros a b. unfold qmax. destruct (Qclt_le_dec a b); [right|left]; split; auto; qlra.
Qed.
Ltac qmm a b := let E := fresh "E" in let L := fresh "L" in
  first [destruct (qmin_cases a b) as [[E L]|[E L]]; rewrite ?E in *].

Lemma lip_min : forall K f g lo hi, lip K f lo hi -> lip K g lo hi -> lip K (fun u => qmin (f u) (g u)) lo hi.
Proof.
  intros K f g lo hi F G u v U1 U2 U3. destruct (F u v U1 U2 U3), (G u v U1 U2 U3).
  destruct (qmin_cases (f u) (g u)) as [[-> ?]|[-> ?]], (qmin_cases (f v) (g v)) as [[-> ?]|[-> ?]]; split; qlra.
Qed.
Lemma lip_max : forall K f g lo hi, lip K f lo hi -> lip K g lo hi -> lip K (fun u => qmax (f u) (g u)) lo hi.
Proof.
  intros K f g lo hi F G u v U1 U2 U3. destruct (F u v U1 U2 U3), (G u v U1 U2 U3).
  destruct (qmax_cases (f u) (g u)) as [[-> ?]|[-> ?]], (qmax_cases (f v) (g v)) as [[-> ?]|[-> ?]]; split; qlra.
Qed.
Lemma lip_opp : forall K f lo hi, lip K f lo hi -> lip K (fun u => - f u) lo hi.
Proof. intros K f lo hi F u v U1 U2 U3. destruct (F u v U1 U2 U3). split; qlra. Qed.

(** If a bound A <= C * (e - u) holds for all u in [t1,e), then A <= 0. *)
Lemma limit_le : forall A C t1 e, t1 < e -> 0 <= C ->
  (forall u, t1 <= u -> u < e -> A <= C * (e - u)) -> A <= 0.
Proof.
  intros A C t1 e Ht HC H. apply Qcnot_lt_le. intro HA.
  destruct (Qcle_lt_or_eq _ _ HC) as [C0|C0].
  - (* u = e - min (e - t1) (A / (2C)) *)
    assert (N : C <> 0) by (intro; qlra).
    pose proof (Qc_div_mul A (C + C)) as D. set (d := A / (C + C)) in *. clearbody d.
    assert (Hd : d * (C + C) = A) by (apply D; intro; qlra).
    assert (d0 : 0 < d) by qnra.
    destruct (Qclt_le_dec d (e - t1)) as [L|L].
    + assert (K : A <= C * (e - (e - d))) by (apply H; qlra). qnra.
    + assert (K : A <= C * (e - t1)) by (apply H; qlra). qnra.
  - rewrite <- C0 in H. assert (K : A <= 0 * (e - t1)) by (apply H; qlra). qlra.
Qed.

Lemma limit_leq : forall f g K t1 e, t1 < e -> 0 <= K -> lip K f t1 e -> lip K g t1 e ->
  (forall u, t1 <= u -> u < e -> f u <= g u) -> f e <= g e.
Proof.
  intros f g K t1 e Ht HK F G H.
  assert (A : f e - g e <= 0).
  { apply (limit_le _ (K + K) t1 e); auto; [qlra|].
    intros u U1 U2. destruct (F u e), (G u e); try qlra. specialize (H u U1 U2). qlra. }
  qlra.
Qed.

Lemma limit_eq : forall f g K t1 e, t1 < e -> 0 <= K -> lip K f t1 e -> lip K g t1 e ->
  (forall u, t1 <= u -> u < e -> f u = g u) -> f e = g e.
Proof.
  intros f g K t1 e Ht HK F G H.
  apply Qcle_antisym.
  - apply (limit_leq f g K t1 e); auto. intros u U1 U2. rewrite H; auto. qlra.
  - apply (limit_leq g f K t1 e); auto. intros u U1 U2. rewrite H; auto. qlra.
Qed.
