(** Duality of the timed operators: the "min" routines are the negated "max" ones. *)
From Coq Require Import List QArith Qcanon Bool Lia.
From Verif Require Import Num Base Signal QcTac Spec Robust Repr NegProof.
Import ListNotations.
Local Open Scope Qc_scope.

Lemma opp0 : - 0 = 0 :> Qc. Proof. ring. Qed.

Lemma drop_while_map : forall A B (g : A -> B) (f : B -> bool) (f' : A -> bool) l,
  (forall a, f (g a) = f' a) -> drop_while f (map g l) = map g (drop_while f' l).
Proof.
  intros A B g f f' l H. induction l as [|a l IH]; [reflexivity|]. cbn [map drop_while]. rewrite H, IH.
  destruct (f' a); reflexivity.
Qed.
Lemma pop_back_map : forall A B (g : A -> B) (f : B -> bool) (f' : A -> bool) l,
  (forall a, f (g a) = f' a) -> pop_back_while f (map g l) = map g (pop_back_while f' l).
Proof.
  intros A B g f f' l H. unfold pop_back_while. rewrite <- map_rev, (drop_while_map _ _ g f f') by auto.
  symmetry. apply map_rev.
Qed.

(** ** resize *)
Lemma pop_front_neg : forall s l f, pop_front_lt s (neg f) (negl l) =
  let '(f', l') := pop_front_lt s f l in (neg f', negl l').
Proof.
  intros s. induction l as [|p l IH]; intros f; [reflexivity|]. cbn [map pop_front_lt]. rewrite time_neg.
  destruct (nltb (time p) s); [apply IH|reflexivity].
Qed.

Lemma default_neg : neg default_sample = default_sample.
Proof. reflexivity. Qed.

Lemma resize_front_neg : forall x s, resize_front (cnot x) s =
  rmap (fun '(l, e) => (negl l, e)) (resize_front x s).
Proof.
  intros x s. unfold resize_front. cbn [compute_not samples beginTime endTime].
  destruct (nltb s (beginTime x)).
  - rewrite deref_map, bind_rmap, rmap_bind. apply bind_ext. intros f.
    unfold rmap. cbn [bind map]. unfold neg_sample at 4. cbn [time value deriv]. change (nopp n0) with (n0 : Qc). reflexivity.
  - rewrite <- default_neg at 1. rewrite pop_front_neg.
    destruct (pop_front_lt s default_sample (samples x)) as [f l'].
    destruct l' as [|q l']; cbn [map].
    + unfold rmap. cbn [bind map]. unfold neg_sample at 2. cbn [time value deriv].
      rewrite valueAt_neg. change (nopp n0) with (n0 : Qc). reflexivity.
    + rewrite time_neg. destruct (nltb s (time q)); [|reflexivity].
      unfold rmap. cbn [bind map]. unfold neg_sample at 4. cbn [time value deriv]. rewrite valueAt_neg. reflexivity.
Qed.

Lemma neqb_opp0 : forall a : Qc, neqb (- a) n0 = neqb a n0.
Proof. intros a. change (n0 : Qc) with (- (0:Qc)) at 1. rewrite neqb_neg. reflexivity. Qed.

Lemma resize_back_neg : forall l e s t v, resize_back (negl l) e s t (- v) = rmap negl (resize_back l e s t v).
Proof.
  intros l e s t v. unfold resize_back. rewrite rmap_bind.
  assert (K : forall l', Ok (match negl l' with [] => [mkS s (- v) n0] | _ :: _ => negl l' end)
    = rmap negl (Ok (match l' with [] => [mkS s v n0] | _ :: _ => l' end))).
  { intros []; reflexivity. }
  destruct (nltb e t).
  - rewrite back_map, bind_rmap. destruct (back l) as [bk| | | |]; try reflexivity. cbn [bind].
    rewrite <- K. change (value (neg bk)) with (- value bk). change (deriv (neg bk)) with (- deriv bk).
    rewrite neqb_neg, neqb_opp0.
    destruct (negb (neqb (value bk) v) || negb (neqb (deriv bk) n0)); [|reflexivity].
    rewrite map_app. reflexivity.
  - cbn [bind]. rewrite (pop_back_map _ _ neg _ (fun p => nltb t (time p))) by reflexivity. apply K.
Qed.

Lemma resize_neg : forall x s t v, resize (cnot x) s t (- v) = rmap cnot (resize x s t v).
Proof.
  intros x s t v. unfold resize. destruct (nltb t (nsub s neps)); [reflexivity|].
  rewrite resize_front_neg, bind_rmap, rmap_bind. apply bind_ext. intros [l e].
  rewrite resize_back_neg, bind_rmap, rmap_bind. apply bind_ext. intros l'. reflexivity.
Qed.

Lemma shift_neg : forall x a, shift (cnot x) a = cnot (shift x a).
Proof. intros x a. unfold shift, compute_not. cbn [samples beginTime endTime]. rewrite !map_map. reflexivity. Qed.

(** ** plateau *)
Notation npt := (fun p : Qc * Qc => (fst p, - snd p)).

Lemma fmin_neg : forall a b : Qc, fmin (- a) (- b) = - fmax a b.
Proof. intros a b. unfold fmin, fmax. rewrite nltb_neg. destruct (nltb b a); reflexivity. Qed.
Lemma fmax_neg : forall a b : Qc, fmax (- a) (- b) = - fmin a b.
Proof. intros a b. unfold fmin, fmax. rewrite nltb_neg. destruct (nltb a b); reflexivity. Qed.

Lemma plateau_pre_neg : forall l t v y,
  plateau_min_pre (negl l) t (- v) (map npt y) = map npt (plateau_max_pre l t v y).
Proof.
  induction l as [|j l IH]; intros t v y; [reflexivity|]. cbn [map plateau_min_pre plateau_max_pre].
  rewrite <- IH. cbn [map fst snd]. rewrite valueAt_neg, fmin_neg. reflexivity.
Qed.

Lemma pop_pt_neg : forall (w : Qc) Mq, pop_back_while (fun q : Qc * Qc => nleb (- w) (snd q)) (map npt Mq) =
  map npt (pop_back_while (fun q => nleb (snd q) w) Mq).
Proof. intros w Mq. apply pop_back_map. intros a. cbn [snd]. apply nleb_neg. Qed.

Lemma plateau_init_neg : forall lim i Mq,
  plateau_min_init lim (map npt Mq) (map npt i) =
  rmap (fun '(m, j) => (map npt m, map npt j)) (plateau_max_init lim Mq i).
Proof.
  intros lim. induction i as [|p i IH]; intros Mq; [reflexivity|]. cbn [map plateau_min_init plateau_max_init fst snd].
  destruct (nltb (fst p) lim); [|reflexivity]. rewrite <- IH, map_app, pop_pt_neg. reflexivity.
Qed.

Lemma plateau_next_neg : forall a Mq i t, plateau_next a (map npt Mq) (map npt i) t = plateau_next a Mq i t.
Proof. intros a [|m Mq] [|p i] t; reflexivity. Qed.

Section M.
Variable M : Qc.

Lemma plateau_loop_neg : forall fuel a Mq i t nc ec z,
  plateau_min_loop M fuel a (map npt Mq) (map npt i) t nc ec (negl z) =
  rmap negl (plateau_max_loop M fuel a Mq i t nc ec z).
Proof.
  induction fuel as [|n IH]; intros a Mq i t nc ec z; [reflexivity|].
  cbn [plateau_min_loop plateau_max_loop].
  assert (E1 : (if ec then match map npt Mq with [] => UB | _ :: q => Ok q end else Ok (map npt Mq)) =
    rmap (map npt) (if ec then match Mq with [] => UB | _ :: q => Ok q end else Ok Mq)).
  { destruct ec, Mq; reflexivity. }
  rewrite E1, bind_rmap, rmap_bind. apply bind_ext. intros M1.
  assert (E2 : (if nc then p <- deref (map npt i);;
      Ok (pop_back_while (fun q => nleb (snd p) (snd q)) (map npt M1) ++ [p], tl (map npt i))
      else Ok (map npt M1, map npt i)) =
    rmap (fun '(m, j) => (map npt m, map npt j)) (if nc then p <- deref i;;
      Ok (pop_back_while (fun q => nleb (snd q) (snd p)) M1 ++ [p], tl i) else Ok (M1, i))).
  { destruct nc; [|reflexivity]. destruct i as [|p i]; [reflexivity|]. cbn [map deref bind fst snd tl].
    rewrite pop_pt_neg. unfold rmap. cbn [bind]. rewrite map_app. reflexivity. }
  rewrite E2, bind_rmap, rmap_bind. apply bind_ext. intros [M2 i2].
  rewrite plateau_next_neg. destruct (plateau_next a M2 i2 t) as [[t3 nc3] ec3].
  assert (E3 : negl z ++ [mkS t (match map npt M2 with [] => TOP M | m :: _ => snd m end) n0] =
    negl (z ++ [mkS t (match M2 with [] => BOTTOM M | m :: _ => snd m end) n0])).
  { rewrite map_app. cbn [map]. f_equal. f_equal. unfold neg_sample. cbn [time value deriv].
    change (nopp n0) with (n0 : Qc). destruct M2 as [|m M2]; cbn [map snd]; [|reflexivity].
    unfold TOP, BOTTOM. change (@nopp Qc NumQc) with Qcopp. rewrite Qcopp_involutive. reflexivity. }
  rewrite E3. destruct (nc3 || ec3); [apply IH|reflexivity].
Qed.

Lemma drop_last_neg : forall e z, drop_last_at e (negl z) = rmap negl (drop_last_at e z).
Proof.
  intros e z. unfold drop_last_at. rewrite <- map_rev. destruct (rev z) as [|b r]; [reflexivity|].
  cbn [map]. rewrite time_neg. destruct (neqb (time b) e); [|reflexivity]. rewrite <- map_rev. reflexivity.
Qed.

Lemma plateauMin_neg : forall x a, plateauMin M (cnot x) a = rmap cnot (plateauMax M x a).
Proof.
  intros x a. unfold plateauMin, plateauMax. cbn [compute_not samples beginTime endTime].
  rewrite deref_map, bind_rmap, rmap_bind. apply bind_ext. intros f.
  rewrite <- map_rev.
  pose proof (plateau_pre_neg (rev (samples x)) (endTime x) (BOTTOM M) []) as K.
  replace (- BOTTOM M) with (TOP M) in K
    by (unfold TOP, BOTTOM; change (@nopp Qc NumQc) with Qcopp; symmetry; apply Qcopp_involutive).
  cbn [map] in K. rewrite K. clear K.
  set (y := plateau_max_pre (rev (samples x)) (endTime x) (BOTTOM M) []).
  change ((time (neg f), value (neg f)) :: map npt y) with (map npt ((time f, value f) :: y)).
  rewrite (plateau_init_neg _ _ [] : plateau_min_init _ [] _ = _), bind_rmap, rmap_bind.
  apply bind_ext. intros [Mq i]. rewrite deref_map, bind_rmap, rmap_bind. apply bind_ext. intros p.
  cbn [fst]. rewrite map_length. rewrite (plateau_loop_neg _ _ _ _ _ _ _ [] : plateau_min_loop M _ _ _ _ _ _ _ [] = _), bind_rmap, rmap_bind.
  apply bind_ext. intros z. rewrite drop_last_neg, bind_rmap, rmap_bind. apply bind_ext. intros z'. reflexivity.
Qed.

Lemma computeAnd_neg : forall x y, computeAnd (cnot x) (cnot y) = rmap cnot (computeOr x y).
Proof. intros x y. rewrite computeOr_neg, rmap_rmap, rmap_id; [reflexivity|]. apply cnot_cnot. Qed.

Lemma boundedGlobally_neg : forall x a,
  computeBoundedGlobally M (cnot x) a = rmap cnot (computeBoundedEventually M x a).
Proof.
  intros x a. unfold computeBoundedGlobally, computeBoundedEventually.
  rewrite plateauMin_neg, bind_rmap, rmap_bind. apply bind_ext. intros z1.
  cbn [compute_not beginTime endTime].
  replace (TOP M) with (- BOTTOM M)
    by (unfold TOP, BOTTOM; change (@nopp Qc NumQc) with Qcopp; apply Qcopp_involutive).
  change (mkSig (negl (samples x)) (beginTime x) (endTime x)) with (cnot x).
  rewrite resize_neg, bind_rmap, rmap_bind. apply bind_ext. intros z2. cbv zeta.
  rewrite shift_neg, computeAnd_neg, bind_rmap, rmap_bind. apply bind_ext. intros z3.
  rewrite computeAnd_neg, bind_rmap, rmap_bind. apply bind_ext. intros z.
  apply simplify_neg.
Qed.

Lemma globally_neg : forall x, computeGlobally M (cnot x) = rmap cnot (computeEventually M x).
Proof. intros x. unfold computeGlobally. rewrite cnot_cnot. reflexivity. Qed.

Lemma timed_globally_neg : forall self x a b,
  compute_timed_globally M (cnot self) (cnot x) a b = rmap cnot (compute_timed_eventually M self x a b).
Proof.
  intros self x a b. unfold compute_timed_globally, compute_timed_eventually.
  cbn [compute_not samples beginTime endTime].
  destruct (samples x) as [|p l] eqn:E; [reflexivity|]. cbn [map].
  change (mkSig (negl (samples x)) (beginTime x) (endTime x)) with (cnot x).
  assert (K : (if nltb n0 a then shift (cnot x) (nopp a) else cnot x) =
    cnot (if nltb n0 a then shift x (nopp a) else x)) by (destruct (nltb n0 a); [apply shift_neg|reflexivity]).
  rewrite K. set (y := if nltb n0 a then shift x (nopp a) else x). cbn [compute_not beginTime endTime].
  change (mkSig (negl (samples y)) (beginTime y) (endTime y)) with (cnot y).
  destruct (nleb (nsub b a) n0); [reflexivity|].
  destruct (nleb (nsub (endTime y) (beginTime y)) (nsub b a)); [apply globally_neg|apply boundedGlobally_neg].
Qed.
End M.

Lemma timed_eventually_dual : forall M self x a b,
  compute_timed_eventually M self x a b =
  rmap cnot (compute_timed_globally M (cnot self) (cnot x) a b).
Proof. intros. rewrite timed_globally_neg, rmap_rmap, rmap_id; [reflexivity|]. apply cnot_cnot. Qed.

Lemma timed_globally_dual : forall M self x a b,
  compute_timed_globally M self x a b =
  rmap cnot (compute_timed_eventually M (cnot self) (cnot x) a b).
Proof.
  intros. rewrite <- timed_globally_neg, !cnot_cnot. reflexivity.
Qed.
