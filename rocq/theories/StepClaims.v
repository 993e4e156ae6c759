(** Evaluations of whole formulas over held signals. *)
From Coq Require Import List QArith Qcanon Bool String Lia.
From Verif Require Import Num Base Signal QcTac Spec Robust Repr AndProof Lip BoolOps Closed BoundedProof ResizeProof SigProof TimedProof Transducer StlSpec TreeProof ReadProof NodeProof TreeRob StlClaims SafeTree SafeClaims StepSpec StepRead StepTree.
Import ListNotations.
Local Open Scope Qc_scope.

(** Previous-value interpolation, space robustness. *)
Definition holding (w : nat) (E : env Qc) : Prop := e_ip E = PREVIOUS /\ e_sem E = SPACE /\ trace w (e_data E).

Lemma timed_no_until : forall val w f, timed val w f -> no_until val w f.
Proof.
  intros val w f. induction f; cbn [timed no_until]; try tauto; intros (A & B & C); (split; [qlra|auto]).
Qed.

(** ** Uniqueness *)
Section Unique.
Variables (cst : option string -> Qc -> Qc) (val : bound Qc -> Qc) (data : list (list Qc)).
Hypothesis RI : forall c, rising (column data c).
Notation Rob := (rob_of held cst val data).

Lemma held_expr_unique : forall f t v v', expr_of held cst data f t v -> expr_of held cst data f t v' -> v = v'.
Proof.
  induction f; intros t x y H1 H2; cbn [expr_of] in *; try contradiction; try congruence.
  - eapply held_unique; eauto.
  - destruct H1 as (a1 & A1 & ->). destruct H2 as (a2 & A2 & ->). rewrite (IHf _ _ _ A1 A2). reflexivity.
  - destruct H1 as (a1 & b1 & A1 & B1 & ->). destruct H2 as (a2 & b2 & A2 & B2 & ->). rewrite (IHf1 _ _ _ A1 A2), (IHf2 _ _ _ B1 B2). reflexivity.
  - destruct H1 as (a1 & b1 & A1 & B1 & ->). destruct H2 as (a2 & b2 & A2 & B2 & ->). rewrite (IHf1 _ _ _ A1 A2), (IHf2 _ _ _ B1 B2). reflexivity.
  - destruct H1 as (a1 & b1 & A1 & B1 & ->). destruct H2 as (a2 & b2 & A2 & B2 & ->). rewrite (IHf1 _ _ _ A1 A2), (IHf2 _ _ _ B1 B2). reflexivity.
Qed.

Lemma held_rob_unique : forall f t v v', Rob f t v -> Rob f t v' -> v = v'.
Proof.
  induction f; intros t x y H1 H2; cbn [rob_of] in *; try contradiction.
  - destruct op; destruct H1 as (a1 & b1 & A1 & B1 & ->); destruct H2 as (a2 & b2 & A2 & B2 & ->);
      rewrite (held_expr_unique _ _ _ _ A1 A2), (held_expr_unique _ _ _ _ B1 B2); reflexivity.
  - destruct H1 as (a1 & A1 & ->). destruct H2 as (a2 & A2 & ->). rewrite (IHf _ _ _ A1 A2). reflexivity.
  - destruct H1 as (a1 & b1 & A1 & B1 & ->). destruct H2 as (a2 & b2 & A2 & B2 & ->).
    rewrite (IHf1 _ _ _ A1 A2), (IHf2 _ _ _ B1 B2). reflexivity.
  - destruct H1 as (a1 & b1 & A1 & B1 & ->). destruct H2 as (a2 & b2 & A2 & B2 & ->).
    rewrite (IHf1 _ _ _ A1 A2), (IHf2 _ _ _ B1 B2). reflexivity.
  - destruct H1 as (a1 & b1 & A1 & B1 & ->). destruct H2 as (a2 & b2 & A2 & B2 & ->).
    rewrite (IHf1 _ _ _ A1 A2), (IHf2 _ _ _ B1 B2). reflexivity.
  - destruct H1 as (g1 & G1 & S1). destruct H2 as (g2 & G2 & S2). eapply is_sup_unique; [exact S1|].
    eapply is_sup_ext; [|exact S2]. intros u U1 U2. eapply IHf; eauto.
  - destruct H1 as (g1 & G1 & S1). destruct H2 as (g2 & G2 & S2). eapply is_inf_unique; [exact S1|].
    eapply is_inf_ext; [|exact S2]. intros u U1 U2. eapply IHf; eauto.
  - destruct H1 as (gl1 & gr1 & h1 & L1 & R1 & I1 & S1). destruct H2 as (gl2 & gr2 & h2 & L2 & R2 & I2 & S2).
    eapply is_sup_unique; [exact S1|]. eapply is_sup_ext; [|exact S2]. intros u U1 U2. cbn beta. f_equal.
    + eapply IHf2; eauto.
    + destruct (Qclt_le_dec u t) as [D|D].
      * exfalso. specialize (I1 u U1 U2). destruct I1 as [_ I1].
        specialize (I1 (h1 u + 1)). assert (h1 u + 1 <= h1 u); [|qlra]. apply I1. intros. qlra.
      * eapply is_inf_unique; [apply I2; auto|]. eapply is_inf_ext; [|apply I1; auto].
        intros u' V1 V2. eapply IHf1; eauto; apply L1 || apply L2 || idtac; qlra.
Qed.

(** ** Times that avoid the samples *)
Lemma gap : forall (l : list Qc) e, ~ In e l -> exists d, 0 < d /\ forall t, In t l -> t <= e - d \/ e < t.
Proof.
  induction l as [|t l IH]; intros e N.
  - exists 1. split; [vm_compute; reflexivity|]. intros t [].
  - destruct (IH e) as (d & D1 & D2); [intros H; apply N; right; exact H|].
    destruct (Qclt_le_dec e t) as [C|C].
    + exists d. split; auto. intros t' [<-|I]; auto.
    + assert (L : t < e). { destruct (Qcle_lt_or_eq _ _ C) as [L|L]; auto. exfalso. apply N. left. auto. }
      destruct (Qclt_le_dec d (e - t)) as [K|K].
      * exists d. split; auto. intros t' [<-|I]; auto. left. qlra.
      * exists (e - t). split; [qlra|]. intros t' [<-|I]; [left; qlra|]. destruct (D2 t' I); [left; qlra|auto].
Qed.

Lemma steady_min : forall f e d, (forall u v v', e - d <= u -> u <= e -> Rob f u v -> Rob f e v' -> v = v') ->
  forall d', d' <= d -> forall u v v', e - d' <= u -> u <= e -> Rob f u v -> Rob f e v' -> v = v'.
Proof. intros f e d H d' L u v v' U1 U2. apply H; auto. qlra. Qed.
End Unique.

Section Times.
Variables (w : nat) (E : env Qc).
Hypothesis TR : trace w (e_data E).
Notation val := (bound_value E).
Notation cst := (eff E).
Notation D := (e_data E).
Notation Rob := (rob_of held cst val D).

Lemma columns_rise : forall c, rising (column D c).
Proof. intros c. destruct TR as (_ & R & _). eapply rising_times; [|exact R]. rewrite !times_column. reflexivity. Qed.

Lemma steady_bin : forall f1 f2 e, steady held cst val D f1 e -> steady held cst val D f2 e ->
  exists d, 0 < d /\ forall u a a' b b', e - d <= u -> u <= e -> Rob f1 u a -> Rob f1 e a' -> Rob f2 u b -> Rob f2 e b' -> a = a' /\ b = b'.
Proof.
  intros f1 f2 e (d1 & P1 & H1) (d2 & P2 & H2). exists (qmin d1 d2).
  destruct (qmin_cases d1 d2) as [[-> K]|[-> K]]; (split; [auto|]); intros u a a' b b' U1 U2 A A' B B';
    (split; [eapply H1; eauto; qlra|eapply H2; eauto; qlra]).
Qed.

(** What is seen through a window. *)
Lemma window_steady : forall f a b e, a <= b -> steady held cst val D f (e + a) -> steady held cst val D f (e + b) ->
  exists d, 0 < d /\ forall u, e - d <= u -> u <= e -> forall g g',
    (forall x, u + a <= x -> x <= u + b -> Rob f x (g x)) -> (forall x, e + a <= x -> x <= e + b -> Rob f x (g' x)) ->
    (forall x, u + a <= x -> x <= u + b -> exists y, e + a <= y /\ y <= e + b /\ g x = g' y) /\
    (forall y, e + a <= y -> y <= e + b -> exists x, u + a <= x /\ x <= u + b /\ g x = g' y).
Proof.
  intros f a b e Hab (d1 & P1 & H1) (d2 & P2 & H2).
  assert (HD : exists d, 0 < d /\ d <= d1 /\ d <= d2).
  { destruct (Qclt_le_dec d1 d2); [exists d1|exists d2]; (split; [auto|split; qlra]). }
  destruct HD as (d & D0 & D1 & D2). exists d. split; auto. intros u U1 U2 g g' G G'. split.
  - intros x X1 X2. destruct (Qclt_le_dec x (e + a)) as [C|C].
    + exists (e + a). split; [qlra|]. split; [qlra|]. apply (H1 x); [qlra|qlra|apply G; auto|apply G'; qlra].
    + exists x. split; auto. split; [qlra|]. eapply (held_rob_unique cst val D columns_rise f x); [apply G; auto|apply G'; auto; qlra].
  - intros y Y1 Y2. destruct (Qclt_le_dec (u + b) y) as [C|C].
    + exists (u + b). split; [qlra|]. split; [qlra|].
      assert (A : g (u + b) = g' (e + b)) by (apply (H2 (u + b)); [qlra|qlra|apply G; qlra|apply G'; qlra]).
      assert (B : g' y = g' (e + b)) by (apply (H2 y); [qlra|qlra|apply G'; auto|apply G'; qlra]).
      congruence.
    + exists y. split; [qlra|]. split; auto. eapply (held_rob_unique cst val D columns_rise f y); [apply G; auto; qlra|apply G'; auto].
Qed.

Lemma apart_steady : forall f e, timed val w f -> apart val D f e -> steady held cst val D f e.
Proof.
  induction f; intros e F A; cbn [timed apart] in *; try contradiction.
  - destruct (gap _ e A) as (d & P & G). destruct F as [Xl Xr]. exists d. split; auto. intros u v v' U1 U2 R R'.
    apply (atom_rob_p E w TR) in R; auto. apply (atom_rob_p E w TR) in R'; auto. subst. symmetry. unfold pdiff.
    f_equal; (apply (pval_stepwise E w TR); [auto|auto|intros t I; destruct (G t I); [left; qlra|right; auto]]).
  - destruct (IHf e F A) as (d & P & H). exists d. split; auto. intros u v v' U1 U2 (x & X & ->) (x' & X' & ->). f_equal. eapply H; eauto.
  - destruct F as [F1 F2], A as [A1 A2]. destruct (steady_bin f1 f2 e (IHf1 e F1 A1) (IHf2 e F2 A2)) as (d & P & H). exists d. split; auto.
    intros u v v' U1 U2 (a & b & X & Y & ->) (a' & b' & X' & Y' & ->). destruct (H u a a' b b') as [-> ->]; auto.
  - destruct F as [F1 F2], A as [A1 A2]. destruct (steady_bin f1 f2 e (IHf1 e F1 A1) (IHf2 e F2 A2)) as (d & P & H). exists d. split; auto.
    intros u v v' U1 U2 (a & b & X & Y & ->) (a' & b' & X' & Y' & ->). destruct (H u a a' b b') as [-> ->]; auto.
  - destruct F as [F1 F2], A as [A1 A2]. destruct (steady_bin f1 f2 e (IHf1 e F1 A1) (IHf2 e F2 A2)) as (d & P & H). exists d. split; auto.
    intros u v v' U1 U2 (a & b & X & Y & ->) (a' & b' & X' & Y' & ->). destruct (H u a a' b b') as [-> ->]; auto.
  - destruct F as (F1 & F2 & F3), A as [A1 A2]. destruct (window_steady f _ _ e F2 (IHf _ F3 A1) (IHf _ F3 A2)) as (d & P & H). exists d. split; auto.
    intros u v v' U1 U2 (g & G & [S1 S2]) (g' & G' & [S1' S2']). destruct (H u U1 U2 g g' G G') as [K1 K2]. apply Qcle_antisym.
    + apply S2. intros x X1 X2. destruct (K1 x X1 X2) as (y & Y1 & Y2 & ->). apply S1'; auto.
    + apply S2'. intros y Y1 Y2. destruct (K2 y Y1 Y2) as (x & X1 & X2 & <-). apply S1; auto.
  - destruct F as (F1 & F2 & F3), A as [A1 A2]. destruct (window_steady f _ _ e F2 (IHf _ F3 A1) (IHf _ F3 A2)) as (d & P & H). exists d. split; auto.
    intros u v v' U1 U2 (g & G & [S1 S2]) (g' & G' & [S1' S2']). destruct (H u U1 U2 g g' G G') as [K1 K2]. apply Qcle_antisym.
    + apply S2'. intros y Y1 Y2. destruct (K2 y Y1 Y2) as (x & X1 & X2 & <-). apply S1; auto.
    + apply S2. intros x X1 X2. destruct (K1 x X1 X2) as (y & Y1 & Y2 & ->). apply S1'; auto.
Qed.

Lemma apart_steady_ends : forall f s e, timed val w f -> apart_ends val D f s e -> steady_ends held cst val D f s e.
Proof.
  induction f; intros s e F A; cbn [timed apart_ends steady_ends] in *; try contradiction; auto.
  - destruct F as [F1 F2], A as (A0 & A1 & A2). split; [|auto]. destruct A0 as [A0|[A3 A4]]; [left; auto|right]. split; apply apart_steady; auto.
  - destruct F as [F1 F2], A as (A0 & A1 & A2). split; [|auto]. destruct A0 as [A0|[A3 A4]]; [left; auto|right]. split; apply apart_steady; auto.
  - destruct F as [F1 F2], A as (A0 & A1 & A2). split; [|auto]. destruct A0 as [A0|[A3 A4]]; [left; auto|right]. split; apply apart_steady; auto.
  - apply IHf; tauto.
  - apply IHf; tauto.
Qed.
Lemma ends_settled : forall f s e, steady_ends held cst val D f s e -> settled held cst val D f s e.
Proof. induction f; intros s e H; cbn [steady_ends settled] in *; auto; destruct H as (_ & A & B); auto. Qed.
End Times.

(** C54 *)
Lemma held_claim : forall w E t f s e, holding w E -> stands_for t f -> timed (bound_value E) w f -> 0 <= s -> s <= e ->
  covers (bound_value E) (last_time (e_data E)) f e -> within_of held (eff E) (bound_value E) (e_data E) (e_M E) f ->
  at_samples (bound_value E) (e_data E) f s e -> settled held (eff E) (bound_value E) (e_data E) f s e ->
  exists v lo up, numbers (evaluate E t s e) = Ok (v, lo, up) /\ rob_of held (eff E) (bound_value E) (e_data E) f s v.
Proof.
  intros w E t f s e (PRV & SPC & TR) SF F H0 H1 C W A ST.
  destruct (safe_claim w E f t s e SPC TR SF (timed_no_until _ _ _ F) ltac:(qlra)) as (v & lo & up & N).
  exists v, lo, up. split; [exact N|]. rewrite (evaluate_skel E t (build f) s e SF) in N.
  destruct (numbers_ok _ _ _ _ _ _ _ N) as (t1 & t2 & t3 & R & _).
  destruct (top_pass E w PRV SPC TR f s e F H0 H1 C W A ST) as (v' & t' & g & A1 & A2 & A3 & A4).
  unfold ExprPass.prep in A1. rewrite A1 in R. injection R as <- _. rewrite A4. apply A3; auto. apply Qcle_refl.
Qed.

Lemma apart_settled : forall w E f s e, trace w (e_data E) -> timed (bound_value E) w f ->
  apart_ends (bound_value E) (e_data E) f s e -> settled held (eff E) (bound_value E) (e_data E) f s e.
Proof. intros w E f s e TR F A. apply ends_settled. eapply apart_steady_ends; eauto. Qed.
Lemma held_one : forall w E f t v v', trace w (e_data E) -> rob_of held (eff E) (bound_value E) (e_data E) f t v ->
  rob_of held (eff E) (bound_value E) (e_data E) f t v' -> v = v'.
Proof. intros w E f t v v' TR. apply held_rob_unique. eapply columns_rise; eauto. Qed.
