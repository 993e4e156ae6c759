(** Decision procedures for linear (and some nonlinear) arithmetic on [Qc], by
    translation to [Q]; boolean tests of the [NumQc] instance as propositions. *)
From Coq Require Import QArith Qcanon Bool Lqa.
From Verif Require Import Num Base Signal.

Global Arguments Qcplus : simpl never.
Global Arguments Qcminus : simpl never.
Global Arguments Qcmult : simpl never.
Global Arguments Qcopp : simpl never.
Global Arguments Qcdiv : simpl never.
Global Arguments Qcinv : simpl never.
Global Arguments Q2Qc : simpl never.
Global Arguments Qle_bool : simpl never.
Global Arguments Qeq_bool : simpl never.
Global Arguments nadd : simpl never.
Global Arguments nsub : simpl never.
Global Arguments nmul : simpl never.
Global Arguments nopp : simpl never.
Global Arguments ndiv : simpl never.
Global Arguments nltb : simpl never.
Global Arguments nleb : simpl never.
Global Arguments neqb : simpl never.
Global Arguments n0 : simpl never.
Global Arguments n1 : simpl never.
Global Arguments neps : simpl never.
Global Arguments nabs : simpl never.

Lemma q_plus : forall (a b : Qc) qa qb, this a == qa -> this b == qb -> this (a + b)%Qc == qa + qb.
Proof.
  intros a b qa qb Ha Hb. eapply Qeq_trans; [apply Qred_correct|]. rewrite Ha, Hb. reflexivity.
Qed.
Lemma q_mult : forall (a b : Qc) qa qb, this a == qa -> this b == qb -> this (a * b)%Qc == qa * qb.
Proof.
  intros a b qa qb Ha Hb. eapply Qeq_trans; [apply Qred_correct|]. rewrite Ha, Hb. reflexivity.
Qed.
Lemma q_opp : forall (a : Qc) qa, this a == qa -> this (- a)%Qc == - qa.
Proof.
  intros a qa Ha. eapply Qeq_trans; [apply Qred_correct|]. rewrite Ha. reflexivity.
Qed.
Lemma q_minus : forall (a b : Qc) qa qb, this a == qa -> this b == qb -> this (a - b)%Qc == qa - qb.
Proof.
  intros a b qa qb Ha Hb. apply (q_plus a (- b)%Qc qa (- qb)); auto. apply q_opp; auto.
Qed.
Lemma q_zero : this 0%Qc == 0. Proof. reflexivity. Qed.
Lemma q_one : this 1%Qc == 1. Proof. reflexivity. Qed.
Lemma q_valueAt : forall (p : sample Qc) t qv qd qt qs,
  this (value p) == qv -> this (deriv p) == qd -> this t == qt -> this (time p) == qs ->
  this (valueAt p t) == qv + qd * (qt - qs).
Proof.
  intros p t qv qd qt qs H1 H2 H3 H4. unfold valueAt.
  change (this (value p + deriv p * (t - time p))%Qc == qv + qd * (qt - qs)).
  apply q_plus; auto. apply q_mult; auto. apply q_minus; auto.
Qed.

Lemma q_le_in : forall (a b : Qc) qa qb, this a == qa -> this b == qb -> (a <= b)%Qc -> (qa <= qb)%Q.
Proof. intros a b qa qb Ha Hb H. unfold Qcle in H. rewrite <- Ha, <- Hb. exact H. Qed.
Lemma q_lt_in : forall (a b : Qc) qa qb, this a == qa -> this b == qb -> (a < b)%Qc -> (qa < qb)%Q.
Proof. intros a b qa qb Ha Hb H. unfold Qclt in H. rewrite <- Ha, <- Hb. exact H. Qed.
Lemma q_eq_in : forall (a b : Qc) qa qb, this a == qa -> this b == qb -> a = b -> qa == qb.
Proof. intros a b qa qb Ha Hb H. rewrite <- Ha, <- Hb, H. reflexivity. Qed.
Lemma q_le_out : forall (a b : Qc) qa qb, this a == qa -> this b == qb -> (qa <= qb)%Q -> (a <= b)%Qc.
Proof. intros a b qa qb Ha Hb H. unfold Qcle. rewrite Ha, Hb. exact H. Qed.
Lemma q_lt_out : forall (a b : Qc) qa qb, this a == qa -> this b == qb -> (qa < qb)%Q -> (a < b)%Qc.
Proof. intros a b qa qb Ha Hb H. unfold Qclt. rewrite Ha, Hb. exact H. Qed.
Lemma q_eq_out : forall (a b : Qc) qa qb, this a == qa -> this b == qb -> qa == qb -> a = b.
Proof. intros a b qa qb Ha Hb H. apply Qc_is_canon. rewrite Ha, Hb. exact H. Qed.

(** [qexp e] is a proof of [this e == q] for a polynomial [q] over the atoms. *)
Ltac qexp e :=
  lazymatch e with
  | (?a + ?b)%Qc => let p := qexp a in let q := qexp b in constr:(q_plus a b _ _ p q)
  | (?a * ?b)%Qc => let p := qexp a in let q := qexp b in constr:(q_mult a b _ _ p q)
  | (?a - ?b)%Qc => let p := qexp a in let q := qexp b in constr:(q_minus a b _ _ p q)
  | (- ?a)%Qc => let p := qexp a in constr:(q_opp a _ p)
  | @nadd Qc NumQc ?a ?b => let p := qexp a in let q := qexp b in constr:(q_plus a b _ _ p q)
  | @nmul Qc NumQc ?a ?b => let p := qexp a in let q := qexp b in constr:(q_mult a b _ _ p q)
  | @nsub Qc NumQc ?a ?b => let p := qexp a in let q := qexp b in constr:(q_minus a b _ _ p q)
  | @nopp Qc NumQc ?a => let p := qexp a in constr:(q_opp a _ p)
  | valueAt ?p ?t =>
      let a := qexp (@value Qc p) in let b := qexp (@deriv Qc p) in
      let c := qexp t in let d := qexp (@time Qc p) in
      constr:(q_valueAt p t _ _ _ _ a b c d)
  | value (mkS _ ?x _) => qexp x
  | time (mkS ?x _ _) => qexp x
  | deriv (mkS _ _ ?x) => qexp x
  | @n0 Qc NumQc => constr:(q_zero)
  | @n1 Qc NumQc => constr:(q_one)
  | 0%Qc => constr:(q_zero)
  | 1%Qc => constr:(q_one)
  | Q2Qc ?q => constr:(Qred_correct q)
  | _ => constr:(Qeq_refl (this e))
  end.

Ltac qhyp H :=
  lazymatch type of H with
  | (?a <= ?b)%Qc => let p := qexp a in let q := qexp b in apply (q_le_in a b _ _ p q) in H
  | (?a < ?b)%Qc => let p := qexp a in let q := qexp b in apply (q_lt_in a b _ _ p q) in H
  | @eq Qc ?a ?b => let p := qexp a in let q := qexp b in apply (q_eq_in a b _ _ p q) in H
  end.

Ltac qgoal :=
  lazymatch goal with
  | |- (?a <= ?b)%Qc => let p := qexp a in let q := qexp b in apply (q_le_out a b _ _ p q)
  | |- (?a < ?b)%Qc => let p := qexp a in let q := qexp b in apply (q_lt_out a b _ _ p q)
  | |- @eq Qc ?a ?b => let p := qexp a in let q := qexp b in apply (q_eq_out a b _ _ p q)
  | |- False => idtac
  | |- _ => exfalso
  end.

Ltac qhyps :=
  repeat match goal with
  | H : (_ <= _)%Qc |- _ => qhyp H
  | H : (_ < _)%Qc |- _ => qhyp H
  | H : @eq Qc _ _ |- _ => qhyp H
  | H : ~ (_ <= _)%Qc |- _ => apply Qcnot_le_lt in H
  | H : ~ (_ < _)%Qc |- _ => apply Qcnot_lt_le in H
  end.

Ltac qprep :=
  unfold shift_sample in *;
  cbn [time value deriv samples beginTime endTime] in *.

Ltac qlra := intros; qprep; qgoal; qhyps; lra.
Ltac qnra := intros; qprep; qgoal; qhyps; nra.

(** Booleans *)
Lemma nltb_true : forall x y : Qc, nltb x y = true <-> (x < y)%Qc.
Proof.
  intros x y. cbv [nltb nleb neqb NumQc]. unfold Qclt. rewrite negb_true_iff. split; intro H.
  - apply Qnot_le_lt. intro H'. apply Qle_bool_iff in H'. congruence.
  - destruct (Qle_bool y x) eqn:E; auto. apply Qle_bool_iff in E.
    exfalso. apply (Qlt_not_le _ _ H E).
Qed.
Lemma nltb_false : forall x y : Qc, nltb x y = false <-> (y <= x)%Qc.
Proof.
  intros x y. cbv [nltb nleb neqb NumQc]. unfold Qcle. rewrite negb_false_iff. apply Qle_bool_iff.
Qed.
Lemma nleb_true : forall x y : Qc, nleb x y = true <-> (x <= y)%Qc.
Proof. intros x y. cbv [nltb nleb neqb NumQc]. unfold Qcle. apply Qle_bool_iff. Qed.
Lemma nleb_false : forall x y : Qc, nleb x y = false <-> (y < x)%Qc.
Proof.
  intros x y. rewrite <- nltb_true. cbv [nltb nleb neqb NumQc]. rewrite negb_true_iff. reflexivity.
Qed.
Lemma neqb_true : forall x y : Qc, neqb x y = true <-> x = y.
Proof.
  intros x y. cbv [nltb nleb neqb NumQc]. rewrite Qeq_bool_iff. split.
  - apply Qc_is_canon.
  - intros ->. reflexivity.
Qed.
Lemma neqb_false : forall x y : Qc, neqb x y = false <-> x <> y.
Proof.
  intros x y. split.
  - intros H E. apply neqb_true in E. congruence.
  - intros H. destruct (neqb x y) eqn:E; auto. apply neqb_true in E. contradiction.
Qed.
Lemma ndiv_some : forall x y : Qc, y <> 0%Qc -> ndiv x y = Some (x / y)%Qc.
Proof.
  intros x y H. cbv [ndiv NumQc]. destruct (Qeq_bool y 0) eqn:E; auto.
  apply Qeq_bool_iff in E. exfalso. apply H. apply Qc_is_canon. exact E.
Qed.

(** [x / y] characterised by multiplication, for use with [qnra]. *)
Lemma Qc_div_mul : forall x y : Qc, y <> 0%Qc -> (x / y * y)%Qc = x.
Proof. intros x y H. field. auto. Qed.

Lemma Qc_neq_lt : forall x y : Qc, x <> y -> (x < y)%Qc \/ (y < x)%Qc.
Proof.
  intros x y H. destruct (Qclt_le_dec x y) as [L|L]; auto. right.
  destruct (Qcle_lt_or_eq _ _ L) as [L'|L']; auto. congruence.
Qed.

Lemma this_inj : forall x y : Qc, this x == this y -> x = y.
Proof. apply Qc_is_canon. Qed.

(** Turn boolean hypotheses into propositions. *)
Ltac qb :=
  repeat match goal with
  | H : nltb _ _ = true |- _ => apply nltb_true in H
  | H : nltb _ _ = false |- _ => apply nltb_false in H
  | H : nleb _ _ = true |- _ => apply nleb_true in H
  | H : nleb _ _ = false |- _ => apply nleb_false in H
  | H : neqb _ _ = true |- _ => apply neqb_true in H
  | H : neqb _ _ = false |- _ => apply neqb_false in H
  end.

(** Case analysis on the first boolean test of the goal. *)
Ltac qcase :=
  match goal with
  | |- context [if nltb ?a ?b then _ else _] =>
      let E := fresh "Eb" in destruct (nltb a b) eqn:E; [apply nltb_true in E | apply nltb_false in E]
  | |- context [if nleb ?a ?b then _ else _] =>
      let E := fresh "Eb" in destruct (nleb a b) eqn:E; [apply nleb_true in E | apply nleb_false in E]
  | |- context [if neqb ?a ?b then _ else _] =>
      let E := fresh "Eb" in destruct (neqb a b) eqn:E; [apply neqb_true in E | apply neqb_false in E]
  end.

Ltac qdiv x y := 
  let H := fresh "Hdiv" in
  assert (H : (x / y * y)%Qc = x) by (apply Qc_div_mul; intro; qlra);
  let d := fresh "d" in set (d := (x / y)%Qc) in *; clearbody d.

(** Case analysis on a given test. *)
Ltac qtest b :=
  let E := fresh "Eb" in
  destruct b eqn:E;
  match type of E with
  | nltb _ _ = true => apply nltb_true in E
  | nltb _ _ = false => apply nltb_false in E
  | nleb _ _ = true => apply nleb_true in E
  | nleb _ _ = false => apply nleb_false in E
  | neqb _ _ = true => apply neqb_true in E
  | neqb _ _ = false => apply neqb_false in E
  end.
