(** Negation: the "or" routines are the "and" routines on negated samples. *)
From Coq Require Import List QArith Qcanon Bool Lia.
From Verif Require Import Num Base Signal QcTac Spec Robust Repr AndProof.
Import ListNotations.
Local Open Scope Qc_scope.

Definition rmap {A B} (g : A -> B) (r : res A) : res B := x <- r ;; Ok (g x).

Notation neg := (@neg_sample Qc NumQc).
Notation negl := (map neg).

Lemma rmap_bind : forall A B C (r : res A) (k : A -> res B) (g : B -> C),
  rmap g (bind r k) = bind r (fun x => rmap g (k x)).
Proof. intros A B C [] k g; reflexivity. Qed.

Lemma bind_rmap : forall A B C (r : res A) (g : A -> B) (k : B -> res C),
  bind (rmap g r) k = bind r (fun x => k (g x)).
Proof. intros A B C [] g k; reflexivity. Qed.

Lemma bind_ext : forall A B (r : res A) (k k' : A -> res B),
  (forall x, k x = k' x) -> bind r k = bind r k'.
Proof. intros A B [] k k' H; simpl; auto. Qed.

Lemma neg_neg : forall p, neg (neg p) = p.
Proof.
  intros [t v d]. unfold neg_sample. cbn [time value deriv]. f_equal; apply Qcopp_involutive.
Qed.
Lemma negl_negl : forall l, negl (negl l) = l.
Proof. intros l. rewrite map_map. rewrite (map_ext _ (fun x => x)); [apply map_id|apply neg_neg]. Qed.

Lemma time_neg : forall p, time (neg p) = time p. Proof. reflexivity. Qed.
Lemma line_neg : forall p t, line (neg p) t = - line p t.
Proof. intros p t. unfold line, neg_sample, nopp; cbn [NumQc time value deriv]. ring. Qed.
Lemma valueAt_neg : forall p t, valueAt (neg p) t = - valueAt p t.
Proof. exact line_neg. Qed.

Lemma nltb_neg : forall a b : Qc, nltb (- a) (- b) = nltb b a.
Proof.
  intros a b. destruct (nltb b a) eqn:E; qb; [apply nltb_true|apply nltb_false]; qlra.
Qed.
Lemma nleb_neg : forall a b : Qc, nleb (- a) (- b) = nleb b a.
Proof.
  intros a b. destruct (nleb b a) eqn:E; qb; [apply nleb_true|apply nleb_false]; qlra.
Qed.
Lemma neqb_neg : forall a b : Qc, neqb (- a) (- b) = neqb a b.
Proof.
  intros a b. destruct (neqb a b) eqn:E; qb; [apply neqb_true; congruence|apply neqb_false].
  intro H. apply E. qlra.
Qed.

Lemma timeIntersect_neg : forall i j, timeIntersect (neg i) (neg j) = timeIntersect i j.
Proof.
  intros i j. unfold timeIntersect, neg_sample. cbn [time value deriv].
  unfold nsub, nadd, nmul, nopp; cbn [NumQc].
  destruct (Qc_eq_dec (deriv j) (deriv i)) as [E|E].
  - rewrite E. unfold ndiv; cbn [NumQc].
    replace (- deriv i - - deriv i) with (0:Qc) by ring.
    replace (deriv i - deriv i) with (0:Qc) by ring. reflexivity.
  - rewrite !ndiv_some.
    + cbn [of_div]. f_equal. field. split; intro H; apply E; qlra.
    + intro H; apply E; qlra.
    + intro H; apply E; qlra.
Qed.

Lemma seg_or_body_neg : forall i z t c j,
  seg_or_body i z t c j =
  rmap (fun '(z', c') => (negl z', c')) (seg_and_body (neg i) (negl z) t c (neg j)).
Proof.
  intros i z t c j. unfold seg_or_body, seg_and_body. cbv zeta.
  rewrite !time_neg, !valueAt_neg, timeIntersect_neg.
  change (value (neg j)) with (- value j). change (deriv (neg j)) with (- deriv j).
  change (deriv (neg i)) with (- deriv i).
  rewrite !nltb_neg, neqb_neg.
  repeat match goal with |- context [if ?b then _ else _] =>
    match b with c => fail 1 | _ => destruct b end end;
  try reflexivity;
  try (rewrite rmap_bind; apply bind_ext; intros t'; rewrite !valueAt_neg);
  unfold rmap; destruct c; cbn [bind map]; rewrite ?negl_negl;
  unfold neg_sample; cbn [time value deriv]; unfold nopp; cbn [NumQc];
  rewrite ?Qcopp_involutive; reflexivity.
Qed.

Lemma seg_or_last_neg : forall i z t c j,
  seg_or_last i z t c j = rmap negl (seg_and_last (neg i) (negl z) t c (neg j)).
Proof.
  intros i z t c j. unfold seg_or_last, seg_and_last. cbv zeta.
  rewrite !time_neg, !valueAt_neg, timeIntersect_neg.
  change (value (neg i)) with (- value i). change (deriv (neg j)) with (- deriv j).
  change (deriv (neg i)) with (- deriv i).
  rewrite !nltb_neg, neqb_neg.
  repeat match goal with |- context [if ?b then _ else _] =>
    match b with c => fail 1 | _ => destruct b end end;
  try (rewrite rmap_bind; apply bind_ext; intros t'; rewrite ?valueAt_neg);
  unfold rmap; destruct c; cbn [bind map]; rewrite ?negl_negl, ?neg_neg;
  unfold neg_sample; cbn [time value deriv]; unfold nopp; cbn [NumQc];
  rewrite ?Qcopp_involutive; reflexivity.
Qed.

Lemma seg_or_loop_neg : forall i j z t c,
  seg_or_loop i z t c j =
  rmap (fun '(z', t', c', j') => (negl z', t', c', negl j'))
       (seg_and_loop (neg i) (negl z) t c (negl j)).
Proof.
  intros i j. induction j as [|p j IH]; intros z t c; cbn [map seg_or_loop seg_and_loop]; [reflexivity|].
  rewrite !time_neg. destruct (nltb (time i) (time p)).
  - rewrite seg_or_body_neg, bind_rmap, rmap_bind. apply bind_ext. intros [z' c'].
    rewrite IH, negl_negl. reflexivity.
  - cbn [rmap bind map]. rewrite negl_negl. cbn [map]. rewrite neg_neg, negl_negl. reflexivity.
Qed.

Lemma deref_map : forall A B (g : A -> B) l, deref (map g l) = rmap g (deref l).
Proof. intros A B g []; reflexivity. Qed.

Lemma computeSegmentOr_neg : forall z i t j,
  computeSegmentOr z i t j =
  rmap (fun '(z', j') => (negl z', negl j')) (computeSegmentAnd (negl z) (neg i) t (negl j)).
Proof.
  intros z i t j. unfold computeSegmentOr, computeSegmentAnd.
  rewrite seg_or_loop_neg, bind_rmap, rmap_bind. apply bind_ext. intros [[[z' t'] c'] j'].
  rewrite deref_map, bind_rmap, rmap_bind. apply bind_ext. intros sj.
  rewrite seg_or_last_neg, bind_rmap, rmap_bind, negl_negl, neg_neg. apply bind_ext. reflexivity.
Qed.

Lemma computePartialOr_neg : forall i z j s t,
  computePartialOr z i j s t = rmap negl (computePartialAnd (negl z) (negl i) (negl j) s t).
Proof.
  induction i as [|p i IH]; intros z j s t; cbn [map computePartialOr computePartialAnd]; [reflexivity|].
  rewrite !time_neg. destruct (nltb s (time p)); [|destruct (neqb (time p) s)].
  - rewrite computeSegmentOr_neg, bind_rmap, rmap_bind. apply bind_ext. intros [z' j'].
    rewrite deref_map, bind_rmap, rmap_bind. apply bind_ext. intros sj.
    rewrite IH, negl_negl, time_neg. f_equal.
    destruct (neqb (time sj) (time p)); [destruct j'; cbn [map tl]|]; rewrite ?negl_negl; reflexivity.
  - rewrite computeSegmentOr_neg, bind_rmap, rmap_bind. apply bind_ext. intros [z' j']. reflexivity.
  - rewrite computeSegmentOr_neg, bind_rmap, rmap_bind.
    assert (E : neg (mkS s (valueAt p s) (deriv p)) = mkS s (valueAt (neg p) s) (deriv (neg p))).
    { rewrite valueAt_neg. reflexivity. }
    rewrite E. apply bind_ext. intros [z' j']. reflexivity.
Qed.

(** simplify commutes with negation. *)
Lemma back_map : forall A B (g : A -> B) l, back (map g l) = rmap g (back l).
Proof.
  intros A B g l. induction l as [|a [|b l] IH]; try reflexivity.
  cbn [map]. change (back (map g (b :: l)) = rmap g (back (b :: l))). exact IH.
Qed.

Lemma simplify_loop_neg : forall n b q, simplify_loop n b (negl q) = rmap negl (simplify_loop n b q).
Proof.
  induction n as [|n IH]; intros b q; destruct q as [|p q]; cbn [map simplify_loop]; try reflexivity.
  - rewrite time_neg. destruct (neqb (time p) b); reflexivity.
  - rewrite time_neg. destruct (neqb (time p) b); [reflexivity|].
    change (neg p :: negl q) with (negl (p :: q)).
    rewrite back_map, bind_rmap, rmap_bind. apply bind_ext. intros bk.
    rewrite valueAt_neg, <- IH.
    change (value (neg p)) with (- value p).
    change (deriv (neg p)) with (- deriv p). change (deriv (neg bk)) with (- deriv bk).
    rewrite !neqb_neg.
    destruct (_ || _); [|reflexivity]. rewrite map_app. reflexivity.
Qed.

Notation cnot := (@compute_not Qc NumQc).

Lemma simplify_neg : forall x, simplify (cnot x) = rmap cnot (simplify x).
Proof.
  intros [l b e]. unfold simplify, compute_not. cbn [samples beginTime endTime].
  destruct l as [|p l]; [reflexivity|]. cbn [map].
  change (neg p :: negl l) with (negl (p :: l)). rewrite map_length.
  assert (E : negl l ++ [neg p] = negl (l ++ [p])) by (rewrite map_app; reflexivity).
  rewrite E, simplify_loop_neg, bind_rmap, rmap_bind. apply bind_ext. intros q.
  rewrite back_map, bind_rmap, rmap_bind. apply bind_ext. intros bk.
  rewrite time_neg. unfold rmap. cbn [bind samples beginTime endTime]. f_equal. f_equal.
  destruct (nltb (time bk) e); [|reflexivity]. rewrite map_app. cbn [map]. f_equal. f_equal.
  rewrite valueAt_neg. unfold neg_sample; cbn [time value deriv]. f_equal.
Qed.

Lemma cnot_cnot : forall x, cnot (cnot x) = x.
Proof. intros [l b e]. unfold compute_not. cbn [samples beginTime endTime]. rewrite negl_negl. reflexivity. Qed.

Lemma skip_guarded_neg : forall e l, skip_guarded e (negl l) = rmap negl (skip_guarded e l).
Proof.
  intros e l. induction l as [|p l IH]; [reflexivity|]. cbn [map skip_guarded]. rewrite time_neg.
  destruct (nleb e (time p)); [|reflexivity]. destruct l as [|q l]; [reflexivity|]. exact IH.
Qed.
Lemma skip_unguarded_neg : forall e l, skip_unguarded e (negl l) = rmap negl (skip_unguarded e l).
Proof.
  intros e l. induction l as [|p l IH]; [reflexivity|]. cbn [map skip_unguarded]. rewrite time_neg.
  destruct (nleb e (time p)); [exact IH|reflexivity].
Qed.

Lemma compute_or_neg : forall x y, compute_or x y = rmap cnot (compute_and (cnot x) (cnot y)).
Proof.
  intros x y. unfold compute_or, compute_and. cbv zeta. cbn [compute_not samples beginTime endTime].
  rewrite <- !map_rev, !skip_guarded_neg, !bind_rmap, rmap_bind. apply bind_ext. intros i.
  rewrite bind_rmap, rmap_bind. apply bind_ext. intros j.
  rewrite computePartialOr_neg. cbn [map]. rewrite bind_rmap, rmap_bind. apply bind_ext. intros z.
  rewrite <- simplify_neg. reflexivity.
Qed.
Lemma computeOr_neg : forall x y, computeOr x y = rmap cnot (computeAnd (cnot x) (cnot y)).
Proof.
  intros x y. unfold computeOr, computeAnd. cbv zeta. cbn [compute_not samples beginTime endTime].
  rewrite <- !map_rev, !skip_unguarded_neg, !bind_rmap, rmap_bind. apply bind_ext. intros i.
  rewrite bind_rmap, rmap_bind. apply bind_ext. intros j.
  rewrite computePartialOr_neg. cbn [map]. rewrite bind_rmap, rmap_bind. apply bind_ext. intros z.
  rewrite <- simplify_neg. reflexivity.
Qed.

Lemma rmap_rmap : forall A B C (g : A -> B) (h : B -> C) r, rmap h (rmap g r) = rmap (fun x => h (g x)) r.
Proof. intros A B C g h []; reflexivity. Qed.
Lemma rmap_id : forall A (g : A -> A) r, (forall x, g x = x) -> rmap g r = r.
Proof. intros A g [] H; unfold rmap; simpl; auto. rewrite H. auto. Qed.

Lemma compute_and_neg : forall x y, compute_and x y = rmap cnot (compute_or (cnot x) (cnot y)).
Proof.
  intros x y. rewrite compute_or_neg, rmap_rmap, !cnot_cnot. symmetry. apply rmap_id. apply cnot_cnot.
Qed.

(** evaluation *)
Lemma eval_neg : forall l t, eval (negl l) t = option_map Qcopp (eval l t).
Proof.
  induction l as [|p l IH]; intros t; [reflexivity|]. cbn [map eval]. rewrite IH.
  destruct (eval l t); [reflexivity|]. cbn [option_map]. rewrite time_neg, line_neg.
  destruct (nleb (time p) t); reflexivity.
Qed.

Lemma ordered_neg : forall l, ordered (negl l) <-> ordered l.
Proof.
  induction l as [|p l IH]; [reflexivity|]. cbn [map ordered]. rewrite IH, Forall_map. reflexivity.
Qed.
Lemma qmin_neg : forall a b, qmin (- a) (- b) = - qmax a b.
Proof.
  intros a b. unfold qmin, qmax. destruct (Qclt_le_dec (-b) (-a)), (Qclt_le_dec a b); auto; exfalso; qlra.
Qed.
