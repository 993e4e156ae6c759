(** A computation on doubles and the same computation on rationals, in step: signals held between
    their samples, times on a grid. *)
From Coq Require Import List Bool ZArith QArith Qcanon Lia PrimFloat.
From Verif Require Import Num NumFloat Base Signal Robust Transducer TreeProof QcTac Double DoubleProof.
Import ListNotations.
Local Open Scope Qc_scope.
Local Existing Instance NumF.

(** Same outcome, and related values if it is a value. *)
Definition resR {A B} (R : A -> B -> Prop) (r : res A) (r' : res B) : Prop :=
  match r, r' with
  | Ok a, Ok b => R a b
  | UB, UB | Exn, Exn | NonFinite, NonFinite | OutOfFuel, OutOfFuel => True
  | _, _ => False
  end.

Lemma resR_bind : forall A B C D (R : A -> B -> Prop) (S : C -> D -> Prop) r r' f f',
  resR R r r' -> (forall a b, R a b -> resR S (f a) (f' b)) -> resR S (bind r f) (bind r' f').
Proof. intros A B C D R S r r' f f' H K. destruct r, r'; cbn in *; auto; contradiction. Qed.
Lemma resR_imp : forall A B (R S : A -> B -> Prop) r r', resR R r r' -> (forall a b, R a b -> S a b) -> resR S r r'.
Proof. intros A B R S r r' H K. destruct r, r'; cbn in *; auto. Qed.

Lemma ltbR : forall x y p q, den x p -> den y q -> @nltb float NumF x y = @nltb Qc NumQc p q.
Proof. intros. apply den_ltb; auto. Qed.
Lemma lebR : forall x y p q, den x p -> den y q -> @nleb float NumF x y = @nleb Qc NumQc p q.
Proof. intros. apply den_leb; auto. Qed.
Lemma eqbR : forall x y p q, den x p -> den y q -> @neqb float NumF x y = @neqb Qc NumQc p q.
Proof. intros. apply den_eqb; auto. Qed.
Lemma flat_at : forall (p : sample Qc) t, deriv p = 0 -> valueAt p t = value p.
Proof. intros p t H. unfold valueAt. rewrite H. change (value p + 0 * (t - time p) = value p). ring. Qed.

Section Lock.
Variables (k top : Z) (M : float) (M' : Qc).
Hypothesis (K : (0 <= k <= 44)%Z) (Top : (top < 2 ^ 51)%Z) (HM : den M M').

Definition tm (b : Z) (x : float) (q : Qc) : Prop := grid k b x q /\ (b <= top)%Z.

Lemma tm_den : forall b x q, tm b x q -> den x q.
Proof. intros b x q [H _]. eapply grid_den; eauto. Qed.
Lemma tm_le : forall b c x q, tm b x q -> (b <= c <= top)%Z -> tm c x q.
Proof. intros b c x q [H L] B. split; [eapply grid_le; eauto|]; lia. Qed.
Lemma tm_opp : forall b x q, tm b x q -> tm b (nopp x) (nopp q).
Proof. intros b x q [H L]. split; auto. apply (grid_opp k b x q H). Qed.
Lemma tm_add : forall b c x y p q, tm b x p -> tm c y q -> (b + c <= top)%Z -> tm (b + c) (nadd x y) (nadd p q).
Proof. intros b c x y p q [X _] [Y _] L. split; auto. apply (grid_add k b c x y p q); auto; lia. Qed.
Lemma tm_sub : forall b c x y p q, tm b x p -> tm c y q -> (b + c <= top)%Z -> tm (b + c) (nsub x y) (nsub p q).
Proof. intros b c x y p q [X _] [Y _] L. split; auto. apply (grid_sub k b c x y p q); auto; lia. Qed.
Lemma tm_0 : forall b, (0 <= b <= top)%Z -> tm b n0 n0.
Proof. intros b L. split; [|lia]. eapply grid_le; [apply grid_0; lia|lia]. Qed.
Lemma tm_eps : forall b t s p q, tm b t p -> tm b s q -> @nltb float NumF t (nsub s neps) = @nltb Qc NumQc p (nsub q neps).
Proof. intros b t s p q [X L] [Y _]. apply (grid_eps k b t s p q); auto; lia. Qed.
Lemma tm_finite : forall b c x y p q, tm b x p -> tm c y q -> finite (nsub x y).
Proof.
  intros b c x y p q [X L] [Y L']. destruct (grid_sub k b c x y p q) as [[F _] _]; auto; lia.
Qed.

(** Samples: related times and values, slopes zero. *)
Definition smpR (P : Qc -> Prop) (b : Z) (p : sample float) (p' : sample Qc) : Prop :=
  tm b (time p) (time p') /\ den (value p) (value p') /\ P (value p') /\ den (deriv p) 0 /\ deriv p' = 0.
Definition sigR (P : Qc -> Prop) (b : Z) (x : signal float) (x' : signal Qc) : Prop :=
  Forall2 (smpR P b) (samples x) (samples x') /\ tm b (beginTime x) (beginTime x') /\ tm b (endTime x) (endTime x').

Lemma smp_time : forall P b p p', smpR P b p p' -> tm b (time p) (time p').
Proof. intros P b p p' H. apply H. Qed.
Lemma smp_value : forall P b p p', smpR P b p p' -> den (value p) (value p').
Proof. intros P b p p' H. apply H. Qed.
Lemma smp_slope : forall P b p p', smpR P b p p' -> den (deriv p) (deriv p').
Proof. intros P b p p' H. destruct H as (_ & _ & _ & H & ->). auto. Qed.
Lemma smp_slope0 : forall P b p p', smpR P b p p' -> den (deriv p) 0.
Proof. intros P b p p' H. apply H. Qed.
Lemma smp_slope0' : forall P b p p', smpR P b p p' -> deriv p' = 0.
Proof. intros P b p p' H. apply H. Qed.
Lemma smp_P : forall (P : Qc -> Prop) b p p', smpR P b p p' -> P (value p').
Proof. intros P b p p' H. apply H. Qed.
Lemma smp_at : forall P b p p' c t t', smpR P b p p' -> tm c t t' -> den (valueAt p t) (value p').
Proof.
  intros P b p p' c t t' (A & B & _ & D & _) H. unfold valueAt. apply den_add_0; auto. apply den_mul_0; auto. eapply tm_finite; eauto.
Qed.
Lemma mk_smp : forall (P : Qc -> Prop) b t v d t' v' d', tm b t t' -> den v v' -> P v' -> den d 0 -> d' = 0 -> smpR P b (mkS t v d) (mkS t' v' d').
Proof. intros. split; auto. Qed.
Lemma smp_le : forall P b c p p', smpR P b p p' -> (b <= c <= top)%Z -> smpR P c p p'.
Proof. intros P b c p p' (A & B) L. split; auto. eapply tm_le; eauto. Qed.
Lemma smps_le : forall P b c l l', Forall2 (smpR P b) l l' -> (b <= c <= top)%Z -> Forall2 (smpR P c) l l'.
Proof. intros P b c l l' H L. induction H; constructor; auto. eapply smp_le; eauto. Qed.
Lemma sig_le : forall P b c x x', sigR P b x x' -> (b <= c <= top)%Z -> sigR P c x x'.
Proof. intros P b c x x' (A & B & C) L. split; [eapply smps_le; eauto|split; eapply tm_le; eauto]. Qed.
Lemma smps_any : forall P b l l', Forall2 (smpR P b) l l' -> Forall2 (smpR (fun _ => True) b) l l'.
Proof. intros P b l l' H. induction H as [|p p' l l' S H IH]; constructor; auto. destruct S as (A & B & _ & C). split; auto. Qed.
Lemma sig_any : forall P b x x', sigR P b x x' -> sigR (fun _ => True) b x x'.
Proof. intros P b x x' (A & B). split; auto. eapply smps_any; eauto. Qed.

Lemma den0 : den n0 0.
Proof. apply den_0. Qed.
Lemma den_opp0 : forall x, den x 0 -> den (nopp x) 0.
Proof. intros x H. apply den_opp in H. replace (- 0) with 0 in H by ring. exact H. Qed.
Lemma denM : den (nopp M) (nopp M').
Proof. apply den_opp. exact HM. Qed.

Lemma Forall2_len : forall A B (R : A -> B -> Prop) l l', Forall2 R l l' -> length l = length l'.
Proof. intros A B R l l' H. induction H; cbn; auto. Qed.
Lemma Forall2_back : forall A B (R : A -> B -> Prop) l l', Forall2 R l l' -> resR R (back l) (back l').
Proof.
  intros A B R l l' H. induction H as [|a b l l' S H IH]; cbn; auto. destruct H; cbn in *; auto.
Qed.
Lemma Forall2_deref : forall A B (R : A -> B -> Prop) l l', Forall2 R l l' -> resR R (deref l) (deref l').
Proof. intros A B R l l' H. destruct H; cbn; auto. Qed.
Lemma Forall2_rev' : forall A B (R : A -> B -> Prop) l l', Forall2 R l l' -> Forall2 R (rev l) (rev l').
Proof. intros A B R l l' H. induction H; cbn; auto. apply Forall2_app; auto. Qed.
Lemma Forall2_drop : forall A B (R : A -> B -> Prop) f g l l', Forall2 R l l' -> (forall a b, R a b -> f a = g b) -> Forall2 R (drop_while f l) (drop_while g l').
Proof. intros A B R f g l l' H E. induction H as [|a b l l' S H IH]; cbn; auto. rewrite (E a b S). destruct (g b); auto. Qed.
Lemma Forall2_pop : forall A B (R : A -> B -> Prop) f g l l', Forall2 R l l' -> (forall a b, R a b -> f a = g b) -> Forall2 R (pop_back_while f l) (pop_back_while g l').
Proof. intros. unfold pop_back_while. apply Forall2_rev'. apply Forall2_drop; auto. apply Forall2_rev'; auto. Qed.
Lemma Forall2_tl : forall A B (R : A -> B -> Prop) l l', Forall2 R l l' -> Forall2 R (tl l) (tl l').
Proof. intros A B R l l' H. destruct H; cbn; auto. Qed.

Lemma fmin_den : forall x y p q, den x p -> den y q -> den (fmin x y) (fmin p q).
Proof. intros. unfold fmin. rewrite (ltbR x y p q) by auto. destruct (nltb p q); auto. Qed.
Lemma fmax_den : forall x y p q, den x p -> den y q -> den (fmax x y) (fmax p q).
Proof. intros. unfold fmax. rewrite (ltbR y x q p) by auto. destruct (nltb q p); auto. Qed.
Lemma fmin_tm : forall b x y p q, tm b x p -> tm b y q -> tm b (fmin x y) (fmin p q).
Proof. intros. unfold fmin. rewrite (ltbR x y p q) by (eapply tm_den; eauto). destruct (nltb p q); auto. Qed.
Lemma fmax_tm : forall b x y p q, tm b x p -> tm b y q -> tm b (fmax x y) (fmax p q).
Proof. intros. unfold fmax. rewrite (ltbR y x q p) by (eapply tm_den; eauto). destruct (nltb q p); auto. Qed.
Lemma smin_tm : forall b x y p q, tm b x p -> tm b y q -> tm b (smin x y) (smin p q).
Proof. intros. unfold smin. rewrite (ltbR y x q p) by (eapply tm_den; eauto). destruct (nltb q p); auto. Qed.
Lemma smax_tm : forall b x y p q, tm b x p -> tm b y q -> tm b (smax x y) (smax p q).
Proof. intros. unfold smax. rewrite (ltbR x y p q) by (eapply tm_den; eauto). destruct (nltb p q); auto. Qed.

Hint Resolve tm_den smp_time smp_value smp_slope smp_at smp_slope0 smp_slope0' mk_smp den0 HM denM fmin_den fmax_den fmin_tm fmax_tm smin_tm smax_tm den_opp : lock.
Hint Extern 0 => exact Logic.I : lock.

(** Comparisons of doubles become comparisons of rationals. *)
Ltac cmps := repeat (match goal with
  | |- context [@nltb float NumF ?x ?y] => erewrite (ltbR x y) by eauto 6 with lock
  | |- context [@nleb float NumF ?x ?y] => erewrite (lebR x y) by eauto 6 with lock
  | |- context [@neqb float NumF ?x ?y] => erewrite (eqbR x y) by eauto 6 with lock
  end).
Ltac flats := repeat (match goal with
  | H : smpR _ _ _ ?p |- context [@valueAt Qc NumQc ?p ?t] => rewrite (flat_at p t) by (apply H)
  end).

Notation any := (fun _ : Qc => True).

Ltac fin := cbn; repeat split; repeat (apply Forall2_cons || apply Forall2_nil || apply Forall2_app); eauto 7 with lock.
Ltac cases := repeat qcase; try (exfalso; qlra).

Definition smpsR b : list (sample float) -> list (sample Qc) -> Prop := Forall2 (smpR any b).

(** ** Conjunction and disjunction *)
Lemma seg_and_body_lock : forall b i i' z z' t t' c j j', smpR any b i i' -> smpsR b z z' -> tm b t t' -> smpR any b j j' ->
  resR (fun r r' => smpsR b (fst r) (fst r') /\ snd r = snd r') (seg_and_body i z t c j) (seg_and_body i' z' t' c j').
Proof.
  intros b i i' z z' t t' c j j' I Z T J. unfold seg_and_body. cbv zeta. flats. cmps.
  cases; destruct c; fin.
Qed.
Lemma seg_and_last_lock : forall b i i' z z' t t' c j j', smpR any b i i' -> smpsR b z z' -> tm b t t' -> smpR any b j j' ->
  resR (smpsR b) (seg_and_last i z t c j) (seg_and_last i' z' t' c j').
Proof.
  intros b i i' z z' t t' c j j' I Z T J. unfold seg_and_last. cbv zeta. flats. cmps.
  cases; destruct c; fin.
Qed.
Lemma seg_or_body_lock : forall b i i' z z' t t' c j j', smpR any b i i' -> smpsR b z z' -> tm b t t' -> smpR any b j j' ->
  resR (fun r r' => smpsR b (fst r) (fst r') /\ snd r = snd r') (seg_or_body i z t c j) (seg_or_body i' z' t' c j').
Proof.
  intros b i i' z z' t t' c j j' I Z T J. unfold seg_or_body. cbv zeta. flats. cmps.
  cases; destruct c; fin.
Qed.
Lemma seg_or_last_lock : forall b i i' z z' t t' c j j', smpR any b i i' -> smpsR b z z' -> tm b t t' -> smpR any b j j' ->
  resR (smpsR b) (seg_or_last i z t c j) (seg_or_last i' z' t' c j').
Proof.
  intros b i i' z z' t t' c j j' I Z T J. unfold seg_or_last. cbv zeta. flats. cmps.
  cases; destruct c; fin.
Qed.

Definition loopR b (r : list (sample float) * float * bool * list (sample float)) (r' : list (sample Qc) * Qc * bool * list (sample Qc)) : Prop :=
  let '(z, t, c, j) := r in let '(z', t', c', j') := r' in smpsR b z z' /\ tm b t t' /\ c = c' /\ smpsR b j j'.
Lemma seg_and_loop_lock : forall b i i' j j', smpR any b i i' -> smpsR b j j' -> forall z z' t t' c, smpsR b z z' -> tm b t t' ->
  resR (loopR b) (seg_and_loop i z t c j) (seg_and_loop i' z' t' c j').
Proof.
  intros b i i' j j' I J. induction J as [|p p' j j' P J IH]; intros z z' t t' c Z T; cbn [seg_and_loop]; [exact Logic.I|].
  cmps. qcase.
  - eapply resR_bind; [apply seg_and_body_lock; eauto|]. intros [z1 c1] [z1' c1'] [A B]. cbn in A, B. subst c1'. apply IH; eauto with lock.
  - cbn. repeat split; auto; try apply T. constructor; auto.
Qed.
Lemma seg_or_loop_lock : forall b i i' j j', smpR any b i i' -> smpsR b j j' -> forall z z' t t' c, smpsR b z z' -> tm b t t' ->
  resR (loopR b) (seg_or_loop i z t c j) (seg_or_loop i' z' t' c j').
Proof.
  intros b i i' j j' I J. induction J as [|p p' j j' P J IH]; intros z z' t t' c Z T; cbn [seg_or_loop]; [exact Logic.I|].
  cmps. qcase.
  - eapply resR_bind; [apply seg_or_body_lock; eauto|]. intros [z1 c1] [z1' c1'] [A B]. cbn in A, B. subst c1'. apply IH; eauto with lock.
  - cbn. repeat split; auto; try apply T. constructor; auto.
Qed.

Definition pairR b (r : list (sample float) * list (sample float)) (r' : list (sample Qc) * list (sample Qc)) : Prop :=
  smpsR b (fst r) (fst r') /\ smpsR b (snd r) (snd r').
Lemma segment_and_lock : forall b z z' i i' t t' j j', smpsR b z z' -> smpR any b i i' -> tm b t t' -> smpsR b j j' ->
  resR (pairR b) (computeSegmentAnd z i t j) (computeSegmentAnd z' i' t' j').
Proof.
  intros b z z' i i' t t' j j' Z I T J. unfold computeSegmentAnd.
  eapply resR_bind; [apply seg_and_loop_lock; eauto|]. intros [[[z1 t1] c1] j1] [[[z1' t1'] c1'] j1'] (A & B & <- & C).
  eapply resR_bind; [apply Forall2_deref; exact C|]. intros q q' Q.
  eapply resR_bind; [apply seg_and_last_lock; eauto|]. intros z2 z2' Z2. cbn. split; auto.
Qed.
Lemma segment_or_lock : forall b z z' i i' t t' j j', smpsR b z z' -> smpR any b i i' -> tm b t t' -> smpsR b j j' ->
  resR (pairR b) (computeSegmentOr z i t j) (computeSegmentOr z' i' t' j').
Proof.
  intros b z z' i i' t t' j j' Z I T J. unfold computeSegmentOr.
  eapply resR_bind; [apply seg_or_loop_lock; eauto|]. intros [[[z1 t1] c1] j1] [[[z1' t1'] c1'] j1'] (A & B & <- & C).
  eapply resR_bind; [apply Forall2_deref; exact C|]. intros q q' Q.
  eapply resR_bind; [apply seg_or_last_lock; eauto|]. intros z2 z2' Z2. cbn. split; auto.
Qed.

Lemma partial_and_lock : forall b i i', smpsR b i i' -> forall z z' j j' s s' t t', smpsR b z z' -> smpsR b j j' -> tm b s s' -> tm b t t' ->
  resR (smpsR b) (computePartialAnd z i j s t) (computePartialAnd z' i' j' s' t').
Proof.
  intros b i i' I. induction I as [|p p' i i' P I IH]; intros z z' j j' s s' t t' Z J S T; cbn [computePartialAnd]; [exact Logic.I|].
  flats. cmps. qcase.
  - eapply resR_bind; [apply segment_and_lock; eauto|]. intros [z1 j1] [z1' j1'] [A B]. cbn in A, B.
    eapply resR_bind; [apply Forall2_deref; exact B|]. intros q q' Q. cmps. apply IH; eauto with lock.
    qcase; auto. apply Forall2_tl; auto.
  - qcase.
    + eapply resR_bind; [apply segment_and_lock; eauto|]. intros [z1 j1] [z1' j1'] [A B]. exact A.
    + eapply resR_bind; [apply segment_and_lock; eauto with lock|]. intros [z1 j1] [z1' j1'] [A B]. exact A.
Qed.
Lemma partial_or_lock : forall b i i', smpsR b i i' -> forall z z' j j' s s' t t', smpsR b z z' -> smpsR b j j' -> tm b s s' -> tm b t t' ->
  resR (smpsR b) (computePartialOr z i j s t) (computePartialOr z' i' j' s' t').
Proof.
  intros b i i' I. induction I as [|p p' i i' P I IH]; intros z z' j j' s s' t t' Z J S T; cbn [computePartialOr]; [exact Logic.I|].
  flats. cmps. qcase.
  - eapply resR_bind; [apply segment_or_lock; eauto|]. intros [z1 j1] [z1' j1'] [A B]. cbn in A, B.
    eapply resR_bind; [apply Forall2_deref; exact B|]. intros q q' Q. cmps. apply IH; eauto with lock.
    qcase; auto. apply Forall2_tl; auto.
  - qcase.
    + eapply resR_bind; [apply segment_or_lock; eauto|]. intros [z1 j1] [z1' j1'] [A B]. exact A.
    + eapply resR_bind; [apply segment_or_lock; eauto with lock|]. intros [z1 j1] [z1' j1'] [A B]. exact A.
Qed.

(** ** Simplification *)
Lemma simplify_loop_lock : forall fuel b b0 b0' q q', smpsR b q q' -> tm b b0 b0' ->
  resR (smpsR b) (simplify_loop fuel b0 q) (simplify_loop fuel b0' q').
Proof.
  induction fuel as [|n IH]; intros b b0 b0' q q' Q B; destruct Q as [|p p' q q' P Q]; cbn [simplify_loop]; try exact Logic.I.
  - cmps. qcase; cbn; auto. constructor; auto.
  - cmps. qcase; [cbn; constructor; auto|]. eapply resR_bind; [apply Forall2_back; constructor; eauto|].
    intros r r' R. flats. cmps. apply IH; auto. destruct (negb _ || negb _); auto. apply Forall2_app; auto.
Qed.
Lemma simplify_lock : forall b x x', sigR any b x x' -> resR (sigR any b) (simplify x) (simplify x').
Proof.
  intros b [l0 s e] [l0' s' e'] (S & B & E). unfold simplify. cbn [samples beginTime endTime] in *. pose proof (Forall2_len _ _ _ _ _ S) as L.
  destruct S as [|p p' l l' P S]; [exact Logic.I|]. rewrite L.
  eapply resR_bind; [apply simplify_loop_lock; eauto; apply Forall2_app; auto; constructor; auto|].
  intros q q' Q. eapply resR_bind; [apply Forall2_back; exact Q|]. intros r r' R. flats. cmps.
  cbn. split; auto. cbn [samples]. qcase; auto. apply Forall2_app; auto. constructor; eauto with lock.
Qed.

(** ** Whole signals *)
Lemma not_lock : forall b x x', sigR any b x x' -> sigR any b (compute_not x) (compute_not x').
Proof.
  intros b x x' (S & B & E). split; auto. cbn [samples compute_not]. induction S as [|p p' l l' P S IH]; cbn [map]; constructor; auto.
  apply mk_smp; eauto with lock.
  - apply den_opp0. eauto with lock.
  - rewrite (smp_slope0' _ _ _ _ P). apply Qc_is_canon; reflexivity.
Qed.
Lemma skip_guarded_lock : forall b e e' l l', smpsR b l l' -> tm b e e' -> resR (smpsR b) (skip_guarded e l) (skip_guarded e' l').
Proof.
  intros b e e' l l' L E. induction L as [|p p' l l' P L IH]; cbn [skip_guarded]; [exact Logic.I|]. cmps. qcase.
  - destruct L; auto. cbn. constructor; auto.
  - cbn. constructor; auto.
Qed.
Lemma skip_unguarded_lock : forall b e e' l l', smpsR b l l' -> tm b e e' -> resR (smpsR b) (skip_unguarded e l) (skip_unguarded e' l').
Proof.
  intros b e e' l l' L E. induction L as [|p p' l l' P L IH]; cbn [skip_unguarded]; [exact Logic.I|]. cmps. qcase; auto. cbn. constructor; auto.
Qed.

Lemma sig_samples : forall P b x x', sigR P b x x' -> Forall2 (smpR P b) (samples x) (samples x').
Proof. intros P b x x' H. apply H. Qed.
Lemma sig_begin : forall P b x x', sigR P b x x' -> tm b (beginTime x) (beginTime x').
Proof. intros P b x x' H. apply H. Qed.
Lemma sig_end : forall P b x x', sigR P b x x' -> tm b (endTime x) (endTime x').
Proof. intros P b x x' H. apply H. Qed.
Lemma mk_sig : forall P b l l' s s' e e', Forall2 (smpR P b) l l' -> tm b s s' -> tm b e e' -> sigR P b (mkSig l s e) (mkSig l' s' e').
Proof. intros. split; auto. Qed.
Hint Resolve sig_samples sig_begin sig_end mk_sig : lock.

Ltac boolean pl sl :=
  let X := fresh in let Y := fresh in let i := fresh in let i' := fresh in let I := fresh in let j := fresh in let j' := fresh in let J := fresh in
  intros b x x' y y' X Y; cbv zeta;
  apply (resR_bind _ _ _ _ (smpsR b)); [apply (sl b); [apply Forall2_rev'; apply X|eauto with lock]|]; intros i i' I;
  apply (resR_bind _ _ _ _ (smpsR b)); [apply (sl b); [apply Forall2_rev'; apply Y|eauto with lock]|]; intros j j' J;
  apply (resR_bind _ _ _ _ (smpsR b)); [apply (pl b); eauto with lock; constructor|]; intros; apply simplify_lock; apply mk_sig; eauto with lock.
Lemma compute_and_lock : forall b x x' y y', sigR any b x x' -> sigR any b y y' -> resR (sigR any b) (compute_and x y) (compute_and x' y').
Proof. unfold compute_and. boolean partial_and_lock skip_guarded_lock. Qed.
Lemma compute_or_lock : forall b x x' y y', sigR any b x x' -> sigR any b y y' -> resR (sigR any b) (compute_or x y) (compute_or x' y').
Proof. unfold compute_or. boolean partial_or_lock skip_guarded_lock. Qed.
Lemma computeAnd_lock : forall b x x' y y', sigR any b x x' -> sigR any b y y' -> resR (sigR any b) (computeAnd x y) (computeAnd x' y').
Proof. unfold computeAnd. boolean partial_and_lock skip_unguarded_lock. Qed.
Lemma computeOr_lock : forall b x x' y y', sigR any b x x' -> sigR any b y y' -> resR (sigR any b) (computeOr x y) (computeOr x' y').
Proof. unfold computeOr. boolean partial_or_lock skip_unguarded_lock. Qed.
Lemma compute_implies_lock : forall b x x' y y', sigR any b x x' -> sigR any b y y' -> resR (sigR any b) (compute_implies x y) (compute_implies x' y').
Proof. intros. apply compute_or_lock; auto. apply not_lock; auto. Qed.

(** ** Resizing, shifting, appending *)
Lemma tm_range : forall b x q, tm b x q -> (0 <= b <= top)%Z.
Proof. intros b x q [[_ (m & B & _)] L]. lia. Qed.
Lemma zero_smp : forall (P : Qc -> Prop) b, (0 <= b <= top)%Z -> P 0 -> smpR P b default_sample default_sample.
Proof. intros P b L H. split; [apply tm_0; auto|]. repeat split; auto. Qed.
Lemma empty_lock : forall P b, (0 <= b <= top)%Z -> sigR P b empty_signal empty_signal.
Proof. intros P b L. split; [constructor|]. split; apply tm_0; auto. Qed.

Lemma pop_front_lock : forall P b s s' l l', Forall2 (smpR P b) l l' -> tm b s s' -> forall f f', smpR P b f f' ->
  smpR P b (fst (pop_front_lt s f l)) (fst (pop_front_lt s' f' l')) /\ Forall2 (smpR P b) (snd (pop_front_lt s f l)) (snd (pop_front_lt s' f' l')).
Proof.
  intros P b s s' l l' L S. induction L as [|p p' l l' H L IH]; intros f f' F; cbn [pop_front_lt]; [cbn; auto|].
  rewrite (ltbR (time p) s (time p') s') by eauto with lock. destruct (nltb (time p') s'); [apply IH; auto|cbn; auto].
Qed.
Lemma resize_front_lock : forall (P : Qc -> Prop) b x x' s s', sigR P b x x' -> tm b s s' -> P 0 ->
  resR (fun r r' => Forall2 (smpR P b) (fst r) (fst r') /\ tm b (snd r) (snd r')) (resize_front x s) (resize_front x' s').
Proof.
  intros P b x x' s s' X S H0. unfold resize_front. cmps. qcase.
  - eapply resR_bind; [apply Forall2_deref; apply X|]. intros f f' F. cbn. split; [|apply X]. constructor; [|apply X].
    apply mk_smp; eauto with lock. apply F.
  - destruct (pop_front_lock P b s s' (samples x) (samples x') (sig_samples _ _ _ _ X) S default_sample default_sample) as [A B].
    { apply zero_smp; auto. eapply tm_range; eauto. }
    destruct (pop_front_lt s default_sample (samples x)) as [f l], (pop_front_lt s' default_sample (samples x')) as [f' l'].
    cbn [fst snd] in A, B. rewrite (flat_at f') by apply A. destruct B as [|p p' l l' Q B].
    + cbn. split. { constructor; [|constructor]. apply mk_smp; eauto with lock. apply A. } cmps. qcase; eauto with lock.
    + cmps. qcase; cbn; (split; [|eauto with lock]).
      * constructor; [|constructor; auto]. apply mk_smp; eauto with lock. apply A.
      * constructor; auto.
Qed.
Lemma resize_back_lock : forall (P : Qc -> Prop) b l l' e e' s s' t t' v v', Forall2 (smpR P b) l l' -> tm b e e' -> tm b s s' -> tm b t t' -> den v v' -> P v' ->
  resR (Forall2 (smpR P b)) (resize_back l e s t v) (resize_back l' e' s' t' v').
Proof.
  intros P b l l' e e' s s' t t' v v' L E S T V H. unfold resize_back.
  apply (resR_bind _ _ _ _ (Forall2 (smpR P b))).
  - cmps. qcase.
    + eapply resR_bind; [apply Forall2_back; exact L|]. intros r r' R. cmps. cbn.
      change (@n0 Qc NumQc) with 0. destruct (negb _ || negb _); auto. apply Forall2_app; auto. constructor; [|constructor].
      apply mk_smp; eauto with lock.
    + cbn. apply Forall2_pop; auto. intros a a' A. cmps. reflexivity.
  - intros m m' Mm. cbn. destruct Mm; [|constructor; auto]. constructor; [|constructor]. apply mk_smp; eauto with lock.
Qed.
Lemma resize_lock : forall (P : Qc -> Prop) b x x' s s' t t' v v', sigR P b x x' -> tm b s s' -> tm b t t' -> den v v' -> P v' -> P 0 ->
  resR (sigR P b) (resize x s t v) (resize x' s' t' v').
Proof.
  intros P b x x' s s' t t' v v' X S T V H H0. unfold resize. rewrite (tm_eps b t s t' s') by auto. destruct (nltb t' (nsub s' neps)).
  { cbn. apply empty_lock. eapply tm_range; eauto. }
  cmps. assert (T' : tm b (if nltb t' s' then s else t) (if nltb t' s' then s' else t')) by (destruct (nltb t' s'); auto).
  eapply resR_bind; [apply (resize_front_lock P b); eauto|]. intros [l e] [l' e'] [A B]. cbn [fst snd] in A, B.
  eapply resR_bind; [apply (resize_back_lock P b); eauto|]. intros l1 l1' L1. cbn. apply mk_sig; auto.
Qed.
Lemma shift_lock : forall P b c x x' a a', sigR P b x x' -> tm c a a' -> (b + c <= top)%Z -> sigR P (b + c) (shift x a) (shift x' a').
Proof.
  intros P b c x x' a a' X A L. apply mk_sig; try (apply tm_add; eauto with lock).
  destruct X as [S _]. induction S as [|p p' l l' H S IH]; cbn [map]; constructor; auto.
  destruct H as (H1 & H2). split; auto. cbn. apply tm_add; auto.
Qed.
Lemma append_lock : forall (P : Qc -> Prop) b x x' t t' v v' d d', sigR P b x x' -> tm b t t' -> den v v' -> P v' ->
  resR (sigR P b) (appendSample3 PREVIOUS x t v d) (appendSample3 PREVIOUS x' t' v' d').
Proof.
  intros P b [l s e] [l' s' e'] t t' v v' d d' (S & B & E) T V H. cbn [samples beginTime endTime] in S, B, E. unfold appendSample3. cbn [samples beginTime endTime]. cmps.
  destruct S as [|p p' l l' Q S].
  - rewrite !andb_false_r. cbn. apply mk_sig; auto. constructor; [|constructor]. apply mk_smp; eauto with lock.
  - rewrite !andb_true_r. qcase; cbn.
    + apply mk_sig; auto.
    + apply mk_sig; auto. apply (Forall2_app (l1 := p :: l) (l1' := p' :: l')); auto. constructor; [|constructor]. apply mk_smp; eauto with lock.
Qed.

(** ** Unbounded eventually and always *)
Definition evR b (r : list (sample float) * float * bool * float * list (sample float)) (r' : list (sample Qc) * Qc * bool * Qc * list (sample Qc)) : Prop :=
  let '(z, t, c, m, i) := r in let '(z', t', c', m', i') := r' in smpsR b z z' /\ tm b t t' /\ c = c' /\ den m m' /\ smpsR b i i'.
Lemma partial_ev_loop_lock : forall b i i', smpsR b i i' -> forall z z' s s' t t' c m m', smpsR b z z' -> tm b s s' -> tm b t t' -> den m m' ->
  resR (evR b) (partial_ev_loop z i s t c m) (partial_ev_loop z' i' s' t' c m').
Proof.
  intros b i i' I. induction I as [|p p' i i' Q I IH]; intros z z' s s' t t' c m m' Z S T D; cbn [partial_ev_loop]; [exact Logic.I|].
  cmps. qcase.
  - cbv zeta. flats. cmps. rewrite (smp_slope0' _ _ _ _ Q).
    replace (nleb n0 0) with true by (symmetry; apply nleb_true; qlra).
    assert (Zc : smpsR b (if c then mkS t m n0 :: z else z) (if c then mkS t' m' n0 :: z' else z')).
    { destruct c; auto. constructor; auto. apply mk_smp; eauto with lock. }
    qcase; cbn [bind]; apply IH; eauto with lock.
  - cbn. repeat split; auto; try apply T; try apply D. constructor; auto.
Qed.
Lemma partial_ev_last_lock : forall b z z' p p' s s' t t' c m m', smpsR b z z' -> smpR any b p p' -> tm b s s' -> tm b t t' -> den m m' ->
  resR (smpsR b) (partial_ev_last z p s t c m) (partial_ev_last z' p' s' t' c m').
Proof.
  intros b z z' p p' s s' t t' c m m' Z Q S T D. unfold partial_ev_last. cbv zeta. flats. cmps. rewrite (smp_slope0' _ _ _ _ Q).
  replace (nleb n0 0) with true by (symmetry; apply nleb_true; qlra).
  assert (Zc : smpsR b (if c then mkS t m n0 :: z else z) (if c then mkS t' m' n0 :: z' else z')).
  { destruct c; auto. constructor; auto. apply mk_smp; eauto with lock. }
  qcase; cbn; constructor; auto; apply mk_smp; eauto with lock.
Qed.
Lemma partial_ev_lock : forall b z z' i i' s s' t t', smpsR b z z' -> smpsR b i i' -> tm b s s' -> tm b t t' ->
  resR (pairR b) (computePartialEventually M z i s t) (computePartialEventually M' z' i' s' t').
Proof.
  intros b z z' i i' s s' t t' Z I S T. unfold computePartialEventually.
  eapply resR_bind; [apply (partial_ev_loop_lock b); eauto; apply denM|]. intros [[[[z1 t1] c1] m1] i1] [[[[z1' t1'] c1'] m1'] i1'] (A & B & <- & C & D).
  eapply resR_bind; [apply Forall2_deref; exact D|]. intros p p' Q.
  eapply resR_bind; [apply (partial_ev_last_lock b); eauto|]. intros z2 z2' Z2. cbn. split; auto.
Qed.
Lemma eventually_lock : forall b x x', sigR any b x x' -> resR (sigR any b) (computeEventually M x) (computeEventually M' x').
Proof.
  intros b x x' X. unfold computeEventually, compute_eventually.
  eapply resR_bind; [apply (partial_ev_lock b); [constructor|apply Forall2_rev'; apply X|apply X|apply X]|].
  intros [z i] [z' i'] [A B]. cbn. apply mk_sig; auto; apply X.
Qed.
Lemma globally_lock : forall b x x', sigR any b x x' -> resR (sigR any b) (computeGlobally M x) (computeGlobally M' x').
Proof.
  intros b x x' X. unfold computeGlobally. eapply resR_bind; [apply (eventually_lock b); apply not_lock; eauto|]. intros z z' Z. cbn. apply not_lock; auto.
Qed.

(** ** Until *)
Lemma segment_until_lock : forall b z z' i i' t t' j j' m m', smpsR b z z' -> smpR any b i i' -> tm b t t' -> smpsR b j j' -> den m m' ->
  resR (pairR b) (computeSegmentUntil M z i t j m) (computeSegmentUntil M' z' i' t' j' m').
Proof.
  intros b z z' i i' t t' j j' m m' Z I T J D. unfold computeSegmentUntil. cbv zeta. flats. cmps. rewrite (smp_slope0' _ _ _ _ I).
  replace (nleb 0 n0) with true by (symmetry; apply nleb_true; qlra).
  eapply resR_bind; [apply (segment_and_lock b); eauto; constructor|]. intros [z1 j1] [z1' j1'] [A B].
  eapply resR_bind; [apply (partial_ev_lock b); eauto with lock; [constructor|apply Forall2_rev'; exact A]|]. intros [z2 j2] [z2' j2'] [C _].
  eapply resR_bind; [apply (segment_or_lock b); eauto with lock; apply Forall2_rev'; exact C|]. intros [z3 j3] [z3' j3'] [E _].
  cbn. split; auto.
Qed.
Lemma until_loop_lock : forall b i i', smpsR b i i' -> forall z z' j j' s s' t t' m m', smpsR b z z' -> smpsR b j j' -> tm b s s' -> tm b t t' -> den m m' ->
  resR (smpsR b) (until_loop M z i j s t m) (until_loop M' z' i' j' s' t' m').
Proof.
  intros b i i' I. induction I as [|p p' i i' Q I IH]; intros z z' j j' s s' t t' m m' Z J S T D; cbn [until_loop]; [exact Logic.I|].
  flats. cmps. qcase.
  - eapply resR_bind; [apply (segment_until_lock b); eauto|]. intros [z1 j1] [z1' j1'] [A B]. cbn in A, B.
    eapply resR_bind; [apply Forall2_deref; exact A|]. intros f f' F.
    eapply resR_bind; [apply Forall2_deref; exact B|]. intros q q' Qq. cmps. apply IH; eauto with lock.
    qcase; auto. apply Forall2_tl; auto.
  - qcase.
    + eapply resR_bind; [apply (segment_until_lock b); eauto|]. intros [z1 j1] [z1' j1'] [A B]. exact A.
    + eapply resR_bind; [apply (segment_until_lock b); eauto with lock|]. intros [z1 j1] [z1' j1'] [A B]. exact A.
Qed.
Lemma until_lock : forall b x x' y y', sigR any b x x' -> sigR any b y y' -> resR (sigR any b) (computeUntil M x y) (computeUntil M' x' y').
Proof.
  intros b x x' y y' X Y. unfold computeUntil. cbv zeta.
  apply (resR_bind _ _ _ _ (smpsR b)); [apply (skip_unguarded_lock b); [apply Forall2_rev'; apply X|eauto with lock]|]; intros i i' I.
  apply (resR_bind _ _ _ _ (smpsR b)); [apply (skip_unguarded_lock b); [apply Forall2_rev'; apply Y|eauto with lock]|]; intros j j' J.
  apply (resR_bind _ _ _ _ (smpsR b)); [apply (until_loop_lock b); eauto with lock; constructor|]; intros; apply simplify_lock; apply mk_sig; eauto with lock.
Qed.

(** ** Plateaus *)
Definition ptR (b : Z) (p : float * float) (p' : Qc * Qc) : Prop := tm b (fst p) (fst p') /\ den (snd p) (snd p').
Definition ptsR (b : Z) := Forall2 (ptR b).
Lemma pt_time : forall b p p', ptR b p p' -> tm b (fst p) (fst p').
Proof. intros b p p' H. apply H. Qed.
Lemma pt_value : forall b p p', ptR b p p' -> den (snd p) (snd p').
Proof. intros b p p' H. apply H. Qed.
Lemma mk_pt : forall b t t' v v', tm b t t' -> den v v' -> ptR b (t, v) (t', v').
Proof. intros. split; auto. Qed.
Hint Resolve pt_time pt_value mk_pt : lock.

Lemma max_pre_lock : forall b l l', smpsR b l l' -> forall t t' v v' y y', tm b t t' -> den v v' -> ptsR b y y' ->
  ptsR b (plateau_max_pre l t v y) (plateau_max_pre l' t' v' y').
Proof.
  intros b l l' L. induction L as [|p p' l l' Q L IH]; intros t t' v v' y y' T V Y; cbn [plateau_max_pre]; auto.
  apply IH; eauto with lock. constructor; auto. flats. eauto with lock.
Qed.
Lemma min_pre_lock : forall b l l', smpsR b l l' -> forall t t' v v' y y', tm b t t' -> den v v' -> ptsR b y y' ->
  ptsR b (plateau_min_pre l t v y) (plateau_min_pre l' t' v' y').
Proof.
  intros b l l' L. induction L as [|p p' l l' Q L IH]; intros t t' v v' y y' T V Y; cbn [plateau_min_pre]; auto.
  apply IH; eauto with lock. constructor; auto. flats. eauto with lock.
Qed.
Definition twoR b (r : list (float * float) * list (float * float)) (r' : list (Qc * Qc) * list (Qc * Qc)) : Prop :=
  ptsR b (fst r) (fst r') /\ ptsR b (snd r) (snd r').
Lemma max_pop : forall b q q' p p', ptsR b q q' -> ptR b p p' ->
  ptsR b (pop_back_while (fun r => nleb (snd r) (snd p)) q ++ [p]) (pop_back_while (fun r => nleb (snd r) (snd p')) q' ++ [p']).
Proof.
  intros b q q' p p' Q P. apply Forall2_app; [|constructor; [auto|constructor]]. apply Forall2_pop; auto. intros r r' R. cmps. reflexivity.
Qed.
Lemma min_pop : forall b q q' p p', ptsR b q q' -> ptR b p p' ->
  ptsR b (pop_back_while (fun r => nleb (snd p) (snd r)) q ++ [p]) (pop_back_while (fun r => nleb (snd p') (snd r)) q' ++ [p']).
Proof.
  intros b q q' p p' Q P. apply Forall2_app; [|constructor; [auto|constructor]]. apply Forall2_pop; auto. intros r r' R. cmps. reflexivity.
Qed.
Lemma max_init_lock : forall b c a a', tm c a a' -> forall i i', ptsR b i i' -> forall q q', ptsR b q q' ->
  resR (twoR b) (plateau_max_init a q i) (plateau_max_init a' q' i').
Proof.
  intros b c a a' A i i' I. induction I as [|p p' i i' P I IH]; intros q q' Q; cbn [plateau_max_init]; [exact Logic.I|].
  cmps. destruct (nltb (fst p') a').
  - apply IH. apply max_pop; auto.
  - cbn. split; auto. constructor; auto.
Qed.
Lemma min_init_lock : forall b c a a', tm c a a' -> forall i i', ptsR b i i' -> forall q q', ptsR b q q' ->
  resR (twoR b) (plateau_min_init a q i) (plateau_min_init a' q' i').
Proof.
  intros b c a a' A i i' I. induction I as [|p p' i i' P I IH]; intros q q' Q; cbn [plateau_min_init]; [exact Logic.I|].
  cmps. destruct (nltb (fst p') a').
  - apply IH. apply min_pop; auto.
  - cbn. split; auto. constructor; auto.
Qed.
Definition nextR b (r : float * bool * bool) (r' : Qc * bool * bool) : Prop :=
  tm b (fst (fst r)) (fst (fst r')) /\ snd (fst r) = snd (fst r') /\ snd r = snd r'.
Lemma next_lock : forall b c a a' q q' i i' t t', tm c a a' -> ptsR b q q' -> ptsR b i i' -> tm (b + c) t t' -> (b + c <= top)%Z ->
  nextR (b + c) (plateau_next a q i t) (plateau_next a' q' i' t').
Proof.
  intros b c a a' q q' i i' t t' A Q I T L. pose proof (tm_range _ _ _ A) as C0.
  unfold plateau_next. destruct Q as [|m m' q q' Q0 Q], I as [|p p' i i' P I].
  - split; auto.
  - assert (D : tm (b + c) (nsub (fst p) a) (nsub (fst p') a')) by (apply tm_sub; auto with lock; apply P). split; auto.
  - split; auto. cbn. apply (tm_le b); [apply Q0|lia].
  - assert (D : tm (b + c) (nsub (fst p) a) (nsub (fst p') a')) by (apply tm_sub; auto with lock; apply P).
    assert (E : tm (b + c) (fst m) (fst m')) by (apply (tm_le b); [apply Q0|lia]).
    cmps. destruct (neqb _ _); [split; auto|]. destruct (nltb _ _); split; auto.
Qed.
Lemma max_loop_lock : forall b c a a', tm c a a' -> (b + c <= top)%Z -> forall n q q' i i' t t' nc ec z z', ptsR b q q' -> ptsR b i i' -> tm (b + c) t t' -> smpsR (b + c) z z' ->
  resR (smpsR (b + c)) (plateau_max_loop M n a q i t nc ec z) (plateau_max_loop M' n a' q' i' t' nc ec z').
Proof.
  intros b c a a' A L. induction n as [|n IH]; intros q q' i i' t t' nc ec z z' Q I T Z; cbn [plateau_max_loop]; [exact Logic.I|].
  apply (resR_bind _ _ _ _ (ptsR b)).
  { destruct ec; [|exact Q]. destruct Q; [exact Logic.I|]. auto. }
  intros q1 q1' Q1. apply (resR_bind _ _ _ _ (twoR b)).
  { destruct nc; [|split; auto]. eapply resR_bind; [apply Forall2_deref; exact I|]. intros p p' P. cbn. split.
    - apply max_pop; auto.
    - apply Forall2_tl; auto. }
  intros [q2 i2] [q2' i2'] [Q2 I2]. cbn [fst snd] in Q2, I2.
  assert (V : den (match q2 with [] => BOTTOM M | m :: _ => snd m end) (match q2' with [] => BOTTOM M' | m :: _ => snd m end)).
  { destruct Q2 as [|m m' ? ? H _]; [apply denM|apply H]. }
  pose proof (next_lock b c a a' q2 q2' i2 i2' t t' A Q2 I2 T L) as N.
  destruct (plateau_next a q2 i2 t) as [[t3 nc3] ec3], (plateau_next a' q2' i2' t') as [[t3' nc3'] ec3'].
  destruct N as (N1 & N2 & N3). cbn in N1, N2, N3. subst nc3' ec3'.
  assert (Z2 : smpsR (b + c) (z ++ [mkS t (match q2 with [] => BOTTOM M | m :: _ => snd m end) n0]) (z' ++ [mkS t' (match q2' with [] => BOTTOM M' | m :: _ => snd m end) n0])).
  { apply Forall2_app; auto. constructor; [|constructor]. apply mk_smp; eauto with lock. }
  cbv zeta. destruct (nc3 || ec3); [apply IH; auto|exact Z2].
Qed.
Lemma min_loop_lock : forall b c a a', tm c a a' -> (b + c <= top)%Z -> forall n q q' i i' t t' nc ec z z', ptsR b q q' -> ptsR b i i' -> tm (b + c) t t' -> smpsR (b + c) z z' ->
  resR (smpsR (b + c)) (plateau_min_loop M n a q i t nc ec z) (plateau_min_loop M' n a' q' i' t' nc ec z').
Proof.
  intros b c a a' A L. induction n as [|n IH]; intros q q' i i' t t' nc ec z z' Q I T Z; cbn [plateau_min_loop]; [exact Logic.I|].
  apply (resR_bind _ _ _ _ (ptsR b)).
  { destruct ec; [|exact Q]. destruct Q; [exact Logic.I|]. auto. }
  intros q1 q1' Q1. apply (resR_bind _ _ _ _ (twoR b)).
  { destruct nc; [|split; auto]. eapply resR_bind; [apply Forall2_deref; exact I|]. intros p p' P. cbn. split.
    - apply min_pop; auto.
    - apply Forall2_tl; auto. }
  intros [q2 i2] [q2' i2'] [Q2 I2]. cbn [fst snd] in Q2, I2.
  assert (V : den (match q2 with [] => TOP M | m :: _ => snd m end) (match q2' with [] => TOP M' | m :: _ => snd m end)).
  { destruct Q2 as [|m m' ? ? H _]; [exact HM|apply H]. }
  pose proof (next_lock b c a a' q2 q2' i2 i2' t t' A Q2 I2 T L) as N.
  destruct (plateau_next a q2 i2 t) as [[t3 nc3] ec3], (plateau_next a' q2' i2' t') as [[t3' nc3'] ec3'].
  destruct N as (N1 & N2 & N3). cbn in N1, N2, N3. subst nc3' ec3'.
  assert (Z2 : smpsR (b + c) (z ++ [mkS t (match q2 with [] => TOP M | m :: _ => snd m end) n0]) (z' ++ [mkS t' (match q2' with [] => TOP M' | m :: _ => snd m end) n0])).
  { apply Forall2_app; auto. constructor; [|constructor]. apply mk_smp; eauto with lock. }
  cbv zeta. destruct (nc3 || ec3); [apply IH; auto|exact Z2].
Qed.
Lemma drop_last_lock : forall b e e' z z', tm b e e' -> smpsR b z z' -> resR (smpsR b) (drop_last_at e z) (drop_last_at e' z').
Proof.
  intros b e e' z z' E Z. unfold drop_last_at. pose proof (Forall2_rev' _ _ _ _ _ Z) as R. destruct R as [|p p' l l' P R]; [exact Logic.I|].
  cmps. destruct (neqb _ _); [apply Forall2_rev'; exact R|exact Z].
Qed.
Lemma plateauMax_lock : forall b c x x' a a', sigR any b x x' -> tm c a a' -> (b + c <= top)%Z -> resR (sigR any (b + c)) (plateauMax M x a) (plateauMax M' x' a').
Proof.
  intros b c x x' a a' X A L. pose proof (tm_range _ _ _ A) as C0. unfold plateauMax.
  eapply resR_bind; [apply Forall2_deref; apply X|]. intros f f' F. cbv zeta.
  assert (Y : ptsR b ((time f, value f) :: plateau_max_pre (rev (samples x)) (endTime x) (BOTTOM M) []) ((time f', value f') :: plateau_max_pre (rev (samples x')) (endTime x') (BOTTOM M') [])).
  { constructor; [eauto with lock|]. apply max_pre_lock; eauto with lock; [apply Forall2_rev'; apply X|constructor]. }
  rewrite (Forall2_len _ _ _ _ _ Y).
  assert (S : tm (b + c) (nadd (beginTime x) a) (nadd (beginTime x') a')) by (apply tm_add; auto; apply X).
  eapply resR_bind; [apply (max_init_lock b (b + c)); [exact S|exact Y|constructor]|]. intros [q i] [q' i'] [Q I]. cbn [fst snd] in Q, I.
  eapply resR_bind; [apply Forall2_deref; exact I|]. intros p p' P. cmps.
  eapply resR_bind; [apply (max_loop_lock b c); auto; [eapply tm_le; [apply X|lia]|constructor]|]. intros z z' Z.
  assert (E : tm (b + c) (endTime x) (endTime x')) by (eapply tm_le; [apply X|lia]).
  eapply resR_bind; [apply (drop_last_lock (b + c)); [exact E|exact Z]|]. intros z1 z1' Z1. cbn. apply mk_sig; auto. eapply tm_le; [apply X|lia].
Qed.
Lemma plateauMin_lock : forall b c x x' a a', sigR any b x x' -> tm c a a' -> (b + c <= top)%Z -> resR (sigR any (b + c)) (plateauMin M x a) (plateauMin M' x' a').
Proof.
  intros b c x x' a a' X A L. pose proof (tm_range _ _ _ A) as C0. unfold plateauMin.
  eapply resR_bind; [apply Forall2_deref; apply X|]. intros f f' F. cbv zeta.
  assert (Y : ptsR b ((time f, value f) :: plateau_min_pre (rev (samples x)) (endTime x) (TOP M) []) ((time f', value f') :: plateau_min_pre (rev (samples x')) (endTime x') (TOP M') [])).
  { constructor; [eauto with lock|]. apply min_pre_lock; eauto with lock; [apply Forall2_rev'; apply X|constructor]. }
  rewrite (Forall2_len _ _ _ _ _ Y).
  assert (S : tm (b + c) (nadd (beginTime x) a) (nadd (beginTime x') a')) by (apply tm_add; auto; apply X).
  eapply resR_bind; [apply (min_init_lock b (b + c)); [exact S|exact Y|constructor]|]. intros [q i] [q' i'] [Q I]. cbn [fst snd] in Q, I.
  eapply resR_bind; [apply Forall2_deref; exact I|]. intros p p' P. cmps.
  eapply resR_bind; [apply (min_loop_lock b c); auto; [eapply tm_le; [apply X|lia]|constructor]|]. intros z z' Z.
  assert (E : tm (b + c) (endTime x) (endTime x')) by (eapply tm_le; [apply X|lia]).
  eapply resR_bind; [apply (drop_last_lock (b + c)); [exact E|exact Z]|]. intros z1 z1' Z1. cbn. apply mk_sig; auto. eapply tm_le; [apply X|lia].
Qed.

(** ** Timed operators *)
Lemma bounded_ev_lock : forall b c x x' a a', sigR any b x x' -> tm c a a' -> (b + 2 * c <= top)%Z ->
  resR (sigR any (b + 2 * c)) (computeBoundedEventually M x a) (computeBoundedEventually M' x' a').
Proof.
  intros b c x x' a a' X A L. pose proof (tm_range _ _ _ A) as C0. unfold computeBoundedEventually.
  assert (L1 : (b + c <= top)%Z) by lia.
  eapply resR_bind; [apply (plateauMax_lock b c); auto|]. intros z1 z1' Z1.
  eapply resR_bind.
  { apply (resize_lock any (b + c)); try (apply tm_add; auto; apply X); [eapply sig_le; [exact X|lia]|apply denM|exact Logic.I|exact Logic.I]. }
  intros z2 z2' Z2. cbv zeta.
  assert (H2 : sigR any (b + 2 * c) (shift z2 (nopp a)) (shift z2' (nopp a'))).
  { replace (b + 2 * c)%Z with (b + c + c)%Z by ring. apply shift_lock; auto; [apply tm_opp; auto|lia]. }
  eapply resR_bind; [apply (computeOr_lock (b + 2 * c)); [exact H2|eapply sig_le; [exact Z1|lia]]|]. intros z3 z3' Z3.
  eapply resR_bind; [apply (computeOr_lock (b + 2 * c)); [eapply sig_le; [exact X|lia]|exact Z3]|]. intros z4 z4' Z4.
  apply simplify_lock; auto.
Qed.
Lemma bounded_alw_lock : forall b c x x' a a', sigR any b x x' -> tm c a a' -> (b + 2 * c <= top)%Z ->
  resR (sigR any (b + 2 * c)) (computeBoundedGlobally M x a) (computeBoundedGlobally M' x' a').
Proof.
  intros b c x x' a a' X A L. pose proof (tm_range _ _ _ A) as C0. unfold computeBoundedGlobally.
  assert (L1 : (b + c <= top)%Z) by lia.
  eapply resR_bind; [apply (plateauMin_lock b c); auto|]. intros z1 z1' Z1.
  eapply resR_bind.
  { apply (resize_lock any (b + c)); try (apply tm_add; auto; apply X); [eapply sig_le; [exact X|lia]|exact HM|exact Logic.I|exact Logic.I]. }
  intros z2 z2' Z2. cbv zeta.
  assert (H2 : sigR any (b + 2 * c) (shift z2 (nopp a)) (shift z2' (nopp a'))).
  { replace (b + 2 * c)%Z with (b + c + c)%Z by ring. apply shift_lock; auto; [apply tm_opp; auto|lia]. }
  eapply resR_bind; [apply (computeAnd_lock (b + 2 * c)); [exact H2|eapply sig_le; [exact Z1|lia]]|]. intros z3 z3' Z3.
  eapply resR_bind; [apply (computeAnd_lock (b + 2 * c)); [eapply sig_le; [exact X|lia]|exact Z3]|]. intros z4 z4' Z4.
  apply simplify_lock; auto.
Qed.
Ltac timed_lock ev bounded :=
  let C0 := fresh in let C1 := fresh in
  intros b c s0 s0' x x' a a' e e' S0 X A E L; pose proof (tm_range _ _ _ A) as C0;
  pose proof (tm_range _ _ _ (sig_begin _ _ _ _ X)) as C1;
  let H0 := fresh in pose proof (sig_samples _ _ _ _ X) as H0;
  let H := fresh in assert (H : sigR any (b + 5 * c) (mkSig [] (beginTime s0) (endTime s0)) (mkSig [] (beginTime s0') (endTime s0')))
    by (apply mk_sig; [apply Forall2_nil|apply S0|apply S0]);
  destruct H0; [exact H|]; clear H; cbv zeta; cmps; change (Q2Qc 0) with (@n0 Qc NumQc);
  let Y := fresh "Y" in assert (Y : sigR any (b + c) (if nltb n0 a' then shift x (nopp a) else x) (if nltb n0 a' then shift x' (nopp a') else x'))
    by (destruct (nltb n0 a'); [apply shift_lock; auto; [apply tm_opp; auto|lia]|eapply sig_le; [exact X|lia]]);
  let D := fresh "D" in assert (D : tm (c + c) (nsub e a) (nsub e' a')) by (apply tm_sub; auto; lia);
  set (wv := if nltb n0 a' then shift x (nopp a) else x) in *; set (wv' := if nltb n0 a' then shift x' (nopp a') else x') in *;
  let G := fresh "G" in assert (G : tm (b + c + (b + c)) (nsub (endTime wv) (beginTime wv)) (nsub (endTime wv') (beginTime wv'))) by (apply tm_sub; try apply Y; lia);
  cmps; change (Q2Qc 0) with (@n0 Qc NumQc); destruct (nleb (nsub e' a') n0); [eapply sig_le; [exact Y|lia]|]; destruct (nleb (nsub (endTime wv') (beginTime wv')) (nsub e' a'));
  [eapply resR_imp; [apply (ev (b + c)%Z); exact Y|intros u u' U; eapply sig_le; [exact U|lia]]
  |eapply resR_imp; [apply (bounded (b + c)%Z (c + c)%Z); [exact Y|exact D|lia]|intros u u' U; eapply sig_le; [exact U|lia]]].
Lemma timed_ev_lock : forall b c s0 s0' x x' a a' e e', sigR any (b + 5 * c) s0 s0' -> sigR any b x x' -> tm c a a' -> tm c e e' -> (2 * (b + 5 * c) <= top)%Z ->
  resR (sigR any (b + 5 * c)) (compute_timed_eventually M s0 x a e) (compute_timed_eventually M' s0' x' a' e').
Proof. unfold compute_timed_eventually. timed_lock eventually_lock bounded_ev_lock. Qed.
Lemma timed_alw_lock : forall b c s0 s0' x x' a a' e e', sigR any (b + 5 * c) s0 s0' -> sigR any b x x' -> tm c a a' -> tm c e e' -> (2 * (b + 5 * c) <= top)%Z ->
  resR (sigR any (b + 5 * c)) (compute_timed_globally M s0 x a e) (compute_timed_globally M' s0' x' a' e').
Proof. unfold compute_timed_globally. timed_lock globally_lock bounded_alw_lock. Qed.

Lemma computeTimedUntil_lock : forall b c x x' y y' a a' e e', sigR any b x x' -> sigR any b y y' -> tm c a a' -> tm c e e' -> (b + 5 * c <= top)%Z ->
  resR (sigR any (b + 5 * c)) (computeTimedUntil M x y a e) (computeTimedUntil M' x' y' a' e').
Proof.
  intros b c x x' y y' a a' e e' X Y A E L. pose proof (tm_range _ _ _ A) as C0. pose proof (tm_range _ _ _ (sig_begin _ _ _ _ X)) as C1. unfold computeTimedUntil.
  assert (D : tm (c + c) (nsub e a) (nsub e' a')) by (apply tm_sub; auto; lia).
  eapply resR_bind; [apply (bounded_ev_lock b (c + c)); auto; lia|]. intros z2 z2' Z2.
  eapply resR_bind; [apply (until_lock b); eauto|]. intros z3 z3' Z3.
  eapply resR_bind; [apply (computeAnd_lock (b + 2 * (c + c))); [exact Z2|eapply sig_le; [exact Z3|lia]]|]. intros z4 z4' Z4.
  cmps. change (Q2Qc 0) with (@n0 Qc NumQc). destruct (nltb n0 a').
  - eapply resR_bind; [apply (bounded_alw_lock b c); auto; lia|]. intros z1 z1' Z1. apply computeAnd_lock; [eapply sig_le; [exact Z1|lia]|].
    replace (b + 5 * c)%Z with (b + 2 * (c + c) + c)%Z by ring. apply shift_lock; auto; [apply tm_opp; auto|lia].
  - apply computeAnd_lock; eapply sig_le; try eassumption; lia.
Qed.
Lemma timed_until_lock : forall b c s0 s0' x x' y y' a a' e e', sigR any (b + 5 * c) s0 s0' -> sigR any b x x' -> sigR any b y y' -> tm c a a' -> tm c e e' -> (b + 5 * c <= top)%Z ->
  resR (sigR any (b + 5 * c)) (compute_timed_until M s0 x y a e) (compute_timed_until M' s0' x' y' a' e').
Proof.
  intros b c s0 s0' x x' y y' a a' e e' S0 X Y A E L. pose proof (tm_range _ _ _ A) as C0. pose proof (tm_range _ _ _ (sig_begin _ _ _ _ X)) as C1.
  unfold compute_timed_until.
  assert (H : sigR any (b + 5 * c) (mkSig [] (beginTime s0) (endTime s0)) (mkSig [] (beginTime s0') (endTime s0'))).
  { apply mk_sig; [constructor|apply S0|apply S0]. }
  pose proof (sig_samples _ _ _ _ X) as H1. pose proof (sig_samples _ _ _ _ Y) as H2.
  destruct H1; [exact H|]. destruct H2; [exact H|]. cmps. change (Q2Qc 0) with (@n0 Qc NumQc). destruct (nltb _ e'); [|apply computeTimedUntil_lock; auto].
  destruct (neqb a' n0). { eapply resR_imp; [apply (until_lock b); eauto|]. intros u u' U. eapply sig_le; [exact U|lia]. }
  destruct (nltb (endTime x') a'). { eapply resR_imp; [apply (globally_lock b); eauto|]. intros u u' U. eapply sig_le; [exact U|lia]. }
  eapply resR_bind; [apply (bounded_alw_lock b c); auto; lia|]. intros z1 z1' Z1.
  eapply resR_bind; [apply (until_lock b); eauto|]. intros z2 z2' Z2. apply computeAnd_lock; [eapply sig_le; [exact Z1|lia]|].
  eapply sig_le; [apply shift_lock; [exact Z2|apply tm_opp; eauto|lia]|lia].
Qed.

(** ** Trees *)
Section Tree.
Variables (E : env float) (E' : env Qc) (w g0 : Z).
Hypothesis (Ip : e_ip E = PREVIOUS) (Ip' : e_ip E' = PREVIOUS) (Sem : e_sem E = SPACE) (Sem' : e_sem E' = SPACE).
Hypothesis (EM : e_M E = M) (EM' : e_M E' = M').
Hypothesis (W0 : (0 <= w)%Z).
Definition rowR (row : list float) (row' : list Qc) : Prop :=
  Forall2 den row row' /\ (forall t t', nth_error row 0 = Some t -> nth_error row' 0 = Some t' -> tm g0 t t').
Hypothesis (Data : Forall2 rowR (e_data E) (e_data E')).

Record nR (P : Qc -> Prop) (b : Z) (n : nst float) (n' : nst Qc) : Prop := mk_nR {
  n_z : sigR P b (nz n) (nz n'); n_up : sigR any b (nup n) (nup n'); n_low : sigR any b (nlow n) (nlow n');
  n_start : tm b (start_time n) (start_time n'); n_end : tm b (end_time n) (end_time n') }.
Hint Resolve n_z n_up n_low n_start n_end : lock.
Lemma nR_le : forall P b c n n', nR P b n n' -> (b <= c <= top)%Z -> nR P c n n'.
Proof. intros P b c n n' [] L. split; try (eapply sig_le; eauto; fail); eapply tm_le; eauto. Qed.
Lemma nR_z : forall P Q b n n' z z', nR P b n n' -> sigR Q b z z' -> nR Q b (with_z n z) (with_z n' z').
Proof. intros P Q b n n' z z' [] Z. split; auto. Qed.
Lemma nR_up : forall P b n n' z z', nR P b n n' -> sigR any b z z' -> nR P b (with_up n z) (with_up n' z').
Proof. intros P b n n' z z' [] Z. split; auto. Qed.
Lemma nR_low : forall P b n n' z z', nR P b n n' -> sigR any b z z' -> nR P b (with_low n z) (with_low n' z').
Proof. intros P b n n' z z' [] Z. split; auto. Qed.

(** The values of a signal, a constant. *)
Definition sig_values (c : nat) (q : Qc) : Prop := q = 0 \/ exists row, In row (e_data E') /\ nth_error row c = Some q.
Definition cst_values (p : option String.string) (v : Qc) (q : Qc) : Prop := q = 0 \/ q = eff E' p v.

Inductive XT (b : Z) : (Qc -> Prop) -> tree float -> tree Qc -> Prop :=
| X_sig : forall n n' i v c, nR (sig_values c) b n n' -> XT b (sig_values c) (TSig n i v c) (TSig n' i v c)
| X_const : forall n n' i p v v', nR (cst_values p v') b n n' -> den (eff E p v) (eff E' p v') ->
    XT b (cst_values p v') (TConst n i p v) (TConst n' i p v')
| X_abs : forall n n' P c c', XT b P c c' -> nR (fun q => exists x, P x /\ q = nabs x) b n n' ->
    XT b (fun q => exists x, P x /\ q = nabs x) (TAbs n c) (TAbs n' c')
| X_plus : forall n n' P Q l l' r r', XT b P l l' -> XT b Q r r' -> (forall x y, P x -> Q y -> representable (x + y)) ->
    nR (fun q => exists x y, P x /\ Q y /\ q = x + y) b n n' -> XT b (fun q => exists x y, P x /\ Q y /\ q = x + y) (TPlus n l r) (TPlus n' l' r')
| X_minus : forall n n' P Q l l' r r', XT b P l l' -> XT b Q r r' -> (forall x y, P x -> Q y -> representable (x - y)) ->
    nR (fun q => exists x y, P x /\ Q y /\ q = x - y) b n n' -> XT b (fun q => exists x y, P x /\ Q y /\ q = x - y) (TMinus n l r) (TMinus n' l' r')
| X_mult : forall n n' P Q l l' r r', XT b P l l' -> XT b Q r r' -> (forall x y, P x -> Q y -> representable (x * y)) ->
    nR (fun q => exists x y, P x /\ Q y /\ q = x * y) b n n' -> XT b (fun q => exists x y, P x /\ Q y /\ q = x * y) (TMult n l r) (TMult n' l' r').
Lemma XT_le : forall b c P t t', XT b P t t' -> (b <= c <= top)%Z -> XT c P t t'.
Proof. intros b c P t t' H L. induction H; constructor; auto; eapply nR_le; eauto. Qed.
Lemma XT_node : forall b P t t', XT b P t t' -> nR P b (node t) (node t').
Proof. intros b P t t' H. destruct H; auto. Qed.

Lemma nth_den : forall c row row', Forall2 den row row' ->
  match nth_error row c, nth_error row' c with Some x, Some q => den x q | None, None => True | _, _ => False end.
Proof. induction c as [|c IH]; intros row row' H; destruct H; cbn; auto. apply IH; auto. Qed.
Lemma skipn_rel : forall A B (R : A -> B -> Prop) n l l', Forall2 R l l' -> Forall2 R (skipn n l) (skipn n l').
Proof. induction n as [|n IH]; intros l l' H; cbn; auto. destruct H; auto. Qed.
Lemma skipn_incl : forall A n (l : list A), incl (skipn n l) l.
Proof. induction n as [|n IH]; intros l x H; cbn in H; auto. destruct l; auto. right. apply IH; auto. Qed.

Definition readR (P : Qc -> Prop) b (r : signal float * float * float * nat) (r' : signal Qc * Qc * Qc * nat) : Prop :=
  let '(z, t, v, n) := r in let '(z', t', v', n') := r' in sigR P b z z' /\ tm b t t' /\ den v v' /\ P v' /\ n = n'.
Lemma read_signal_lock : forall b c e e', (g0 <= b)%Z -> tm b e e' -> forall rows rows', Forall2 rowR rows rows' -> incl rows' (e_data E') ->
  forall z z' t t' v v' n, sigR (sig_values c) b z z' -> tm b t t' -> den v v' -> sig_values c v' ->
  resR (readR (sig_values c) b) (read_signal PREVIOUS c e z t v rows n) (read_signal PREVIOUS c e' z' t' v' rows' n).
Proof.
  intros b c e e' G H rows rows' R. induction R as [|row row' rows rows' R0 R IH]; intros I z z' t t' v v' n Z Ti V S; cbn [read_signal]; cmps; destruct (nleb t' e'); try (cbn; auto 6; fail).
  destruct R0 as [R1 R2]. pose proof (nth_den 0 _ _ R1) as N0. pose proof (nth_den c _ _ R1) as Nc.
  destruct (nth_error row 0) as [u|] eqn:U, (nth_error row' 0) as [u'|] eqn:U'; try contradiction; [|exact Logic.I].
  destruct (nth_error row c) as [x|] eqn:Xe, (nth_error row' c) as [x'|] eqn:Xe'; try contradiction; [|exact Logic.I].
  assert (Tu : tm b u u'). { pose proof (R2 u u' eq_refl eq_refl) as A. eapply tm_le; [exact A|]. split; [auto|]. apply (tm_range _ _ _ H). }
  assert (Sx : sig_values c x') by (right; exists row'; split; auto; apply I; left; auto).
  eapply resR_bind; [apply (append_lock (sig_values c) b); eauto|]. intros z1 z1' Z1. apply IH; auto. intros q Q. apply I. right; auto.
Qed.
Definition readcR (P : Qc -> Prop) b (r : signal float * float * nat) (r' : signal Qc * Qc * nat) : Prop :=
  let '(z, t, n) := r in let '(z', t', n') := r' in sigR P b z z' /\ tm b t t' /\ n = n'.
Lemma read_constant_lock : forall (P : Qc -> Prop) b v v' e e', (g0 <= b)%Z -> tm b e e' -> den v v' -> P v' -> forall rows rows', Forall2 rowR rows rows' ->
  forall z z' t t' n, sigR P b z z' -> tm b t t' ->
  resR (readcR P b) (read_constant PREVIOUS e z t v rows n) (read_constant PREVIOUS e' z' t' v' rows' n).
Proof.
  intros P b v v' e e' G H V S rows rows' R. induction R as [|row row' rows rows' R0 R IH]; intros z z' t t' n Z Ti; cbn [read_constant]; cmps; destruct (nleb t' e'); try (cbn; auto 6; fail).
  destruct R0 as [R1 R2]. pose proof (nth_den 0 _ _ R1) as N0.
  destruct (nth_error row 0) as [u|] eqn:U, (nth_error row' 0) as [u'|] eqn:U'; try contradiction; [|exact Logic.I].
  assert (Tu : tm b u u'). { pose proof (R2 u u' eq_refl eq_refl) as A. eapply tm_le; [exact A|]. split; [auto|]. apply (tm_range _ _ _ H). }
  eapply resR_bind; [apply (append_lock P b); eauto|]. intros z1 z1' Z1. apply IH; auto.
Qed.
Lemma trim_lock : forall (P : Qc -> Prop) b n n' z z' t t' v v', nR P b n n' -> sigR P b z z' -> tm b t t' -> den v v' -> P v' -> P 0 ->
  resR (sigR P b) (trim_read n z t v) (trim_read n' z' t' v').
Proof.
  intros P b n n' z z' t t' v v' Nn Z Ti V S S0. unfold trim_read. cmps.
  assert (Z1 : sigR P b (if nltb (end_time n') t' then mkSig (samples z) (beginTime z) (end_time n) else z) (if nltb (end_time n') t' then mkSig (samples z') (beginTime z') (end_time n') else z')).
  { destruct (nltb (end_time n') t'); auto. apply mk_sig; eauto with lock. }
  revert Z1. generalize (if nltb (end_time n') t' then mkSig (samples z) (beginTime z) (end_time n) else z) (if nltb (end_time n') t' then mkSig (samples z') (beginTime z') (end_time n') else z').
  intros y y' Y. cbv zeta. cmps. destruct (nltb (start_time n') (endTime y')); apply resize_lock; eauto with lock.
Qed.
Lemma data_nil : match e_data E, e_data E' with [], [] | _ :: _, _ :: _ => True | _, _ => False end.
Proof. destruct Data; auto. Qed.
Definition sgR (P : Qc -> Prop) b (r : float * nst float * option nat) (r' : Qc * nst Qc * option nat) : Prop :=
  den (fst (fst r)) (fst (fst r')) /\ nR P b (snd (fst r)) (snd (fst r')) /\ snd r = snd r'.
Lemma front_lock : forall P b z z', sigR P b z z' -> resR den (front_value z) (front_value z').
Proof. intros P b z z' Z. unfold front_value. eapply resR_bind; [apply Forall2_deref; apply Z|]. intros p p' Q. exact (smp_value _ _ _ _ Q). Qed.
Lemma compute_signal_lock : forall b n n' i c, (g0 <= b)%Z -> nR (sig_values c) b n n' ->
  resR (sgR (sig_values c) b) (compute_signal E n i c) (compute_signal E' n' i c).
Proof.
  intros b n n' i c G Nn. pose proof (tm_range _ _ _ (n_end _ _ _ _ Nn)) as R0. unfold compute_signal.
  apply (resR_bind _ _ _ _ (fun r r' => let '(z, t, v, n) := r in let '(z', t', v', n') := r' in sigR (sig_values c) b z z' /\ tm b t t' /\ den v v' /\ sig_values c v' /\ n = n')).
  - assert (Base : sigR (sig_values c) b (nz n) (nz n') /\ tm b n0 n0 /\ den n0 n0 /\ sig_values c n0 /\ i = i).
    { split; [apply Nn|]. split; [apply tm_0; auto|]. split; [apply den0|]. split; [left; reflexivity|auto]. }
    destruct c as [|c]; [exact Base|]. cmps. change (Q2Qc 0) with (@n0 Qc NumQc). destruct (nleb n0 (end_time n')); [|exact Base].
    destruct i as [i|]; [|exact Logic.I]. pose proof data_nil as Dn. pose proof Data as D0. destruct (e_data E) as [|r1 l1] eqn:D1, (e_data E') as [|r1' l1'] eqn:D2; try contradiction; [exact Logic.I|].
    rewrite Ip, Ip'. eapply resR_bind.
    { apply (read_signal_lock b (S c)); auto; [apply Nn| |rewrite D2; apply skipn_incl|apply Base|apply Base|apply Base|apply Base]. apply skipn_rel. exact D0. }
    intros [[[z t] v] m] [[[z' t'] v'] m'] (A & B & C & D & <-). cbn. auto 6.
  - intros [[[z t] v] m] [[[z' t'] v'] m'] (A & B & C & D & <-).
    eapply resR_bind; [apply (trim_lock (sig_values c) b); eauto; left; auto|]. intros z1 z1' Z1.
    eapply resR_bind; [apply Forall2_deref; apply Z1|]. intros f f' F. cbn. split; [exact (smp_value _ _ _ _ F)|]. split; auto. eapply nR_z; eauto.
Qed.
Definition ctR (P : Qc -> Prop) b (r : float * nst float * option nat * float) (r' : Qc * nst Qc * option nat * Qc) : Prop :=
  den (fst (fst (fst r))) (fst (fst (fst r'))) /\ nR P b (snd (fst (fst r))) (snd (fst (fst r'))) /\ snd (fst r) = snd (fst r') /\ den (snd r) (snd r').
Lemma compute_constant_lock : forall (P : Qc -> Prop) b n n' i v v', (g0 <= b)%Z -> nR P b n n' -> den v v' -> P v' -> P 0 ->
  resR (ctR P b) (compute_constant E n i None v) (compute_constant E' n' i None v').
Proof.
  intros P b n n' i v v' G Nn V S S0. pose proof (tm_range _ _ _ (n_end _ _ _ _ Nn)) as R0. unfold compute_constant.
  apply (resR_bind _ _ _ _ (fun r r' => let '(z, t, n) := r in let '(z', t', n') := r' in sigR P b z z' /\ tm b t t' /\ n = n')).
  - assert (Base : sigR P b (nz n) (nz n') /\ tm b n0 n0 /\ i = i). { split; [apply Nn|]. split; [apply tm_0; auto|auto]. }
    cmps. change (Q2Qc 0) with (@n0 Qc NumQc). destruct (nleb n0 (end_time n')); [|exact Base].
    destruct i as [i|]; [|exact Logic.I]. pose proof data_nil as Dn. pose proof Data as D0. destruct (e_data E) as [|r1 l1] eqn:D1, (e_data E') as [|r1' l1'] eqn:D2; try contradiction; [exact Logic.I|].
    rewrite Ip, Ip'. eapply resR_bind.
    { apply (read_constant_lock P b); auto; [apply Nn| |apply Base|apply Base]. apply skipn_rel. exact D0. }
    intros [[z t] m] [[z' t'] m'] (A & B & <-). cbn. auto 6.
  - intros [[z t] m] [[z' t'] m'] (A & B & <-).
    eapply resR_bind; [apply (trim_lock P b); eauto|]. intros z1 z1' Z1. cbn. split; auto. split; [eapply nR_z; eauto|auto].
Qed.

(** Expressions. *)
Lemma abs_lock : forall (P Q : Qc -> Prop) b l l', Forall2 (smpR P b) l l' -> (forall x, P x -> Q (nabs x)) -> forall z z', sigR Q b z z' ->
  resR (sigR Q b) (abs_loop PREVIOUS z l) (abs_loop PREVIOUS z' l').
Proof.
  intros P Q b l l' L H. induction L as [|p p' l l' S L IH]; intros z z' Z; cbn [abs_loop]; [exact Z|].
  eapply resR_bind; [apply (append_lock Q b); eauto with lock; [apply den_abs; eauto with lock|apply H; eapply smp_P; eauto]|]. intros z1 z1' Z1. apply IH; auto.
Qed.
Lemma bin_lock : forall (P Q R : Qc -> Prop) f f' b, (forall x y p q, den x p -> den y q -> P p -> Q q -> den (f x y) (f' p q) /\ R (f' p q)) ->
  forall l l', Forall2 (smpR P b) l l' -> forall r r', Forall2 (smpR Q b) r r' -> forall z z', sigR R b z z' ->
  resR (sigR R b) (bin_loop f PREVIOUS z l r) (bin_loop f' PREVIOUS z' l' r').
Proof.
  intros P Q R f f' b H l l' L. induction L as [|p p' l l' S L IH]; intros r r' Rr z z' Z; cbn [bin_loop]; [exact Z|].
  eapply resR_bind; [apply Forall2_deref; exact Rr|]. intros q q' S'.
  destruct (H (value p) (value q) (value p') (value q') (smp_value _ _ _ _ S) (smp_value _ _ _ _ S') (smp_P _ _ _ _ S) (smp_P _ _ _ _ S')) as [A B].
  eapply resR_bind; [apply (append_lock R b); eauto with lock|]. intros z1 z1' Z1. apply IH; auto. apply Forall2_tl; auto.
Qed.
Lemma atom_loop_lock : forall (P Q : Qc -> Prop) op b, (forall x y, P x -> Q y -> representable (x - y)) -> (forall x y, P x -> Q y -> representable (y - x)) ->
  forall l l', Forall2 (smpR P b) l l' -> forall r r', Forall2 (smpR Q b) r r' -> forall z z', sigR any b z z' ->
  resR (sigR any b) (atom_loop op PREVIOUS z l r) (atom_loop op PREVIOUS z' l' r').
Proof.
  intros P Q op b H H' l l' L. induction L as [|p p' l l' S L IH]; intros r r' Rr z z' Z; cbn [atom_loop]; [exact Z|].
  destruct Rr as [|q q' r r' S' Rr]; [exact Z|].
  eapply resR_bind; [|intros z1 z1' Z1; apply IH; eauto].
  pose proof (smp_P _ _ _ _ S) as Pp. pose proof (smp_P _ _ _ _ S') as Qq.
  destruct op; apply append_lock; eauto with lock; apply den_sub; eauto with lock.
Qed.
Definition xR b (P : Qc -> Prop) (r : float * tree float) (r' : Qc * tree Qc) : Prop := den (fst r) (fst r') /\ XT b P (snd r) (snd r').
Ltac exprs IH1 IH2 H3 H4 :=
  eapply resR_bind; [exact IH1|]; intros [xx lx] [xx' lx'] [_ Xl]; cbn [snd] in Xl;
  eapply resR_bind; [exact IH2|]; intros [yy ly] [yy' ly'] [_ Xr]; cbn [snd] in Xr; rewrite Ip, Ip';
  eapply resR_bind;
  [eapply bin_lock; [|apply (n_z _ _ _ _ (XT_node _ _ _ _ Xl))|apply (n_z _ _ _ _ (XT_node _ _ _ _ Xr))|exact (n_z _ _ _ _ H4)]
  |intros z z' Z; eapply resR_bind; [apply (front_lock _ _ _ _ Z)|]; intros v v' V; split; [exact V|]; constructor; auto; eapply nR_z; eauto].
Lemma expr_lock : forall b P t t', (g0 <= b)%Z -> XT b P t t' -> resR (xR b P) (compute_rob E t) (compute_rob E' t').
Proof.
  intros b P t t' G H. induction H as [n n' i v c Nn|n n' i p v v' Nn V|n n' P c c' H IH Nn|n n' P Q l l' r r' H IH H2 IH2 H3 Nn|n n' P Q l l' r r' H IH H2 IH2 H3 Nn|n n' P Q l l' r r' H IH H2 IH2 H3 Nn]; cbn [compute_rob].
  - eapply resR_bind; [apply (compute_signal_lock b); eauto|]. intros [[x m] j] [[x' m'] j'] (A & B & C). cbn in A, B, C. subst j'. split; auto. constructor; auto.
  - rewrite (compute_constant_eff E), (compute_constant_eff E').
    pose proof (compute_constant_lock (cst_values p v') b n n' i (eff E p v) (eff E' p v') G Nn V (or_intror eq_refl) (or_introl eq_refl)) as R.
    destruct (compute_constant E n i None (eff E p v)) as [[[[x m] j] y]| | | |] eqn:C1, (compute_constant E' n' i None (eff E' p v')) as [[[[x' m'] j'] y']| | | |] eqn:C2; try contradiction; try exact Logic.I.
    apply compute_constant_value in C1, C2. subst y y'. destruct R as (A & B & C & D). cbn in A, B, C, D. subst j'. split; auto. cbn.
    replace (cst_values p v') with (cst_values p (eff E' p v')) by (unfold cst_values; rewrite eff_eff; reflexivity). constructor; rewrite ?eff_eff; auto.
    unfold cst_values in *. rewrite eff_eff. exact B.
  - eapply resR_bind; [exact IH|]. intros [x c1] [x' c1'] [_ X]. cbn [snd] in X. rewrite Ip, Ip'.
    eapply resR_bind; [apply (abs_lock P (fun q => exists x, P x /\ q = nabs x) b); [apply (n_z _ _ _ _ (XT_node _ _ _ _ X))|intros y Y; exists y; auto|exact (n_z _ _ _ _ Nn)]|].
    intros z z' Z. eapply resR_bind; [apply (front_lock _ _ _ _ Z)|]. intros v v' V. split; [exact V|]. constructor; auto. eapply nR_z; eauto.
  - exprs IH IH2 H3 Nn. intros x y p q Dx Dy Pp Qq. split; [apply den_add; auto|exists p, q; auto].
  - exprs IH IH2 H3 Nn. intros x y p q Dx Dy Pp Qq. split; [apply den_sub; auto|exists p, q; auto].
  - exprs IH IH2 H3 Nn. intros x y p q Dx Dy Pp Qq. split; [apply den_mul; auto|exists p, q; auto].
Qed.

(** Formulas: [d] bounds the nesting of timed operators. *)
Definition lev (g : Z) (d : nat) : Z := (g + 14 * w * Z.of_nat d)%Z.
Definition winR (i : interval float) (i' : interval Qc) : Prop :=
  tm w (bound_value E (ibegin i)) (bound_value E' (ibegin i')) /\ tm w (bound_value E (iend i)) (bound_value E' (iend i')).
Inductive RT (fr : bool) (g : Z) : nat -> tree float -> tree Qc -> Prop :=
| R_atom : forall d n n' P Q l l' r r' op, XT (lev g d) P l l' -> XT (lev g d) Q r r' -> (forall x y, P x -> Q y -> representable (x - y)) ->
    nR any (lev g d) n n' -> RT fr g d (TAtom n l op r) (TAtom n' l' op r')
| R_not : forall d n n' c c', RT fr g d c c' -> nR any (lev g d) n n' -> RT fr g d (TNot n c) (TNot n' c')
| R_and : forall d d1 d2 n n' l l' r r', RT fr g d1 l l' -> RT fr g d2 r r' -> (d1 <= d)%nat -> (d2 <= d)%nat -> nR any (lev g d) n n' -> RT fr g d (TAnd n l r) (TAnd n' l' r')
| R_or : forall d d1 d2 n n' l l' r r', RT fr g d1 l l' -> RT fr g d2 r r' -> (d1 <= d)%nat -> (d2 <= d)%nat -> nR any (lev g d) n n' -> RT fr g d (TOr n l r) (TOr n' l' r')
| R_imp : forall d d1 d2 n n' l l' r r', RT fr g d1 l l' -> RT fr g d2 r r' -> (d1 <= d)%nat -> (d2 <= d)%nat -> nR any (lev g d) n n' -> RT fr g d (TImp n l r) (TImp n' l' r')
| R_ev : forall d d1 n n' i i' c c', RT fr g d1 c c' -> winR i i' -> (d1 < d)%nat -> nR any (lev g d) n n' ->
    tm g (end_time n) (end_time n') -> (fr = true -> sigR any g (nz n) (nz n')) -> RT fr g d (TEv n i c) (TEv n' i' c')
| R_alw : forall d d1 n n' i i' c c', RT fr g d1 c c' -> winR i i' -> (d1 < d)%nat -> nR any (lev g d) n n' -> RT fr g d (TAlw n i c) (TAlw n' i' c')
| R_until : forall d d1 d2 n n' i i' l l' r r', RT fr g d1 l l' -> RT fr g d2 r r' -> winR i i' -> (d1 < d)%nat -> (d2 < d)%nat -> nR any (lev g d) n n' ->
    RT fr g d (TUntil n l i r) (TUntil n' l' i' r').

Lemma lev_le : forall g g' d d', (g <= g')%Z -> (d <= d')%nat -> (lev g d <= lev g' d')%Z.
Proof. intros g g' d d' H H'. unfold lev. nia. Qed.
Lemma lev_lt : forall g d d', (d < d')%nat -> (lev g d + 14 * w <= lev g d')%Z.
Proof. intros g d d' H. unfold lev. nia. Qed.
Lemma lev_shift : forall g a d, lev (g + a) d = (lev g d + a)%Z.
Proof. intros. unfold lev. ring. Qed.
Lemma RT_node : forall fr g d t t', RT fr g d t t' -> nR any (lev g d) (node t) (node t').
Proof. intros fr g d t t' H. destruct H; auto. Qed.
Lemma RT_le : forall g h d t t', RT false g d t t' -> (g <= h)%Z -> (lev h d <= top)%Z -> RT false h d t t'.
Proof.
  intros g h d t t' H G. induction H; intros L; pose proof (lev_le g h d d G (le_n d)) as L0;
    repeat match goal with A : (?d1 <= ?d2)%nat |- _ => pose proof (lev_le h h d1 d2 ltac:(lia) A); revert A | A : (?d1 < ?d2)%nat |- _ => pose proof (lev_lt h d1 d2 A); revert A end; intros.
  - econstructor; eauto; try (eapply XT_le; eauto). eapply nR_le; eauto.
  - constructor; auto. eapply nR_le; eauto.
  - apply (R_and _ _ d d1 d2); auto; try (eapply nR_le; eauto; fail); match goal with IH : _ -> ?C |- ?C => apply IH; lia end.
  - apply (R_or _ _ d d1 d2); auto; try (eapply nR_le; eauto; fail); match goal with IH : _ -> ?C |- ?C => apply IH; lia end.
  - apply (R_imp _ _ d d1 d2); auto; try (eapply nR_le; eauto; fail); match goal with IH : _ -> ?C |- ?C => apply IH; lia end.
  - apply (R_ev _ _ d d1); auto; try (eapply nR_le; eauto; fail); try discriminate.
    + match goal with IH : _ -> ?C |- ?C => apply IH; lia end.
    + eapply tm_le; [eassumption|]. split; [auto|]. unfold lev in L. nia.
  - apply (R_alw _ _ d d1); auto; try (eapply nR_le; eauto; fail). match goal with IH : _ -> ?C |- ?C => apply IH; lia end.
  - apply (R_until _ _ d d1 d2); auto; try (eapply nR_le; eauto; fail); match goal with IH : _ -> ?C |- ?C => apply IH; lia end.
Qed.
Lemma RT_set : forall g d t t' n n', RT false g d t t' -> nR any (lev g d) n n' -> end_time n = end_time (node t) -> end_time n' = end_time (node t') ->
  RT false g d (set_node t n) (set_node t' n').
Proof. intros g d t t' n n' H Hn E1 E2. destruct H; cbn [set_node]; cbn [node] in E1, E2; econstructor; eauto; try discriminate. rewrite E1, E2. assumption. Qed.

Lemma representable_sym : forall x y, representable (x - y) -> representable (y - x).
Proof. intros x y (f & D). exists (nopp f). replace (y - x) with (- (x - y)) by ring. apply den_opp. exact D. Qed.
Lemma atom_lock : forall fr g d n n' P Q l l' r r' op, (g0 <= g)%Z -> XT (lev g d) P l l' -> XT (lev g d) Q r r' -> (forall x y, P x -> Q y -> representable (x - y)) ->
  nR any (lev g d) n n' ->
  resR (fun x x' => den (fst x) (fst x') /\ RT fr g d (snd x) (snd x')) (compute_rob E (TAtom n l op r)) (compute_rob E' (TAtom n' l' op r')).
Proof.
  intros fr g d n n' P Q l l' r r' op G Xl Xr H Nn. assert (G' : (g0 <= lev g d)%Z) by (unfold lev; nia). cbn [compute_rob].
  eapply resR_bind; [apply (expr_lock _ _ _ _ G' Xl)|]. intros [x lx] [x' lx'] [_ Xl']. cbn [snd] in Xl'.
  eapply resR_bind; [apply (expr_lock _ _ _ _ G' Xr)|]. intros [y ly] [y' ly'] [_ Xr']. cbn [snd] in Xr'.
  pose proof (n_z _ _ _ _ (XT_node _ _ _ _ Xl')) as Zl. pose proof (n_z _ _ _ _ (XT_node _ _ _ _ Xr')) as Zr.
  apply (resR_bind _ _ _ _ (fun a a' => den (fst a) (fst a') /\ sigR any (lev g d) (snd a) (snd a'))).
  - unfold compute_atom. rewrite Ip, Ip', Sem, Sem'.
    eapply resR_bind.
    { eapply (atom_loop_lock P Q); [exact H|intros; apply representable_sym; auto|apply Zl|apply Zr|exact (n_z _ _ _ _ Nn)]. }
    intros z z' Z. cbn [bind].
    assert (Z2 : sigR any (lev g d) (mkSig (samples z) (beginTime z) (endTime (tz lx))) (mkSig (samples z') (beginTime z') (endTime (tz lx')))).
    { apply mk_sig; eauto with lock. }
    eapply resR_bind; [apply Forall2_deref; apply Z2|]. intros f f' F. cbn. split; [exact (smp_value _ _ _ _ F)|exact Z2].
  - intros [v z] [v' z'] [A B]. cbn. split; auto. econstructor; eauto. eapply nR_z; eauto.
Qed.

Definition outR g d (x : float * tree float) (x' : Qc * tree Qc) : Prop :=
  den (fst x) (fst x') /\ RT false (g + 7 * w) d (snd x) (snd x') /\ sigR any (lev g d) (tz (snd x)) (tz (snd x')).
Ltac child IH L0 := eapply resR_bind; [apply IH; L0|]; let v := fresh "v" in let c := fresh "c" in let v' := fresh "v" in let c' := fresh "c" in
  let A := fresh "A" in let B := fresh "B" in intros [v c] [v' c'] (_ & A & B); cbn [fst snd] in A, B.
Lemma with_end_lock : forall b z z' e e', sigR any b z z' -> tm b e e' -> sigR any b (with_end z e) (with_end z' e').
Proof. intros b z z' e e' Z H. apply mk_sig; eauto with lock. Qed.
Ltac up := (eapply sig_le || eapply tm_le); [eassumption|]; lia.

Lemma finish_rob : forall g d n n' z z' (mk : nst float -> tree float) (mk' : nst Qc -> tree Qc),
  nR any (lev g d) n n' -> sigR any (lev g d) z z' -> (2 * (lev g d + 7 * w) <= top)%Z ->
  (forall m, node (mk m) = m) -> (forall m, node (mk' m) = m) ->
  (forall m m', nR any (lev (g + 7 * w) d) m m' -> RT false (g + 7 * w) d (mk m) (mk' m')) ->
  resR (outR g d) (v <- front_value z ;; Ok (v, mk (with_z n z))) (v <- front_value z' ;; Ok (v, mk' (with_z n' z'))).
Proof.
  intros g d n n' z z' mk mk' Nn Z L N1 N2 H. eapply resR_bind; [apply (front_lock _ _ _ _ Z)|]. intros v v' V. split; [exact V|].
  pose proof (tm_range _ _ _ (n_start _ _ _ _ Nn)) as R0. cbn [snd]. split.
  - apply H. eapply nR_le; [eapply nR_z; eauto|]. rewrite lev_shift. lia.
  - unfold tz. rewrite N1, N2. exact Z.
Qed.
Lemma rob_lock : forall g d t t', (g0 <= g)%Z -> RT true g d t t' -> (2 * (lev g d + 7 * w) <= top)%Z ->
  resR (outR g d) (compute_rob E t) (compute_rob E' t').
Proof.
  intros g d t t' G H. induction H as [d n n' P Q l l' r r' op Xl Xr HR Nn|d n n' c c' H IH Nn|d d1 d2 n n' l l' r r' H1 IH1 H2 IH2 L1 L2 Nn|d d1 d2 n n' l l' r r' H1 IH1 H2 IH2 L1 L2 Nn|d d1 d2 n n' l l' r r' H1 IH1 H2 IH2 L1 L2 Nn|d d1 n n' i i' c c' H IH [Wa Wb] L1 Nn He Hz|d d1 n n' i i' c c' H IH [Wa Wb] L1 Nn|d d1 d2 n n' i i' l l' r r' H1 IH1 H2 IH2 [Wa Wb] L1 L2 Nn]; intros L; pose proof (tm_range _ _ _ (n_start _ _ _ _ Nn)) as R0.
  - eapply resR_imp; [apply (atom_lock false g d n n' P Q); auto|]. intros [v t] [v' t'] [A B]. split; auto. cbn [snd] in *. split; [|exact (n_z _ _ _ _ (RT_node _ _ _ _ _ B))].
    eapply RT_le; [exact B|lia|rewrite lev_shift; lia].
  - cbn [compute_rob]. child IH lia. apply (finish_rob g d n n' _ _ (fun m => TNot m c0) (fun m => TNot m c1)); auto; [apply not_lock; auto|]. intros; constructor; auto.
  - pose proof (lev_le g g d1 d ltac:(lia) L1). pose proof (lev_le g g d2 d ltac:(lia) L2). cbn [compute_rob].
    child IH1 lia. child IH2 lia. assert (Z1 : sigR any (lev g d) (tz c) (tz c0)) by up. assert (Z2 : sigR any (lev g d) (tz c1) (tz c2)) by up.
    cbv zeta. eapply resR_bind; [apply (compute_and_lock (lev g d)); apply with_end_lock; auto; apply smax_tm; eauto with lock|]. intros z z' Z.
    apply (finish_rob g d n n' _ _ (fun m => TAnd m c c1) (fun m => TAnd m c0 c2)); auto. intros; apply (R_and _ _ d d1 d2); auto.
  - pose proof (lev_le g g d1 d ltac:(lia) L1). pose proof (lev_le g g d2 d ltac:(lia) L2). cbn [compute_rob].
    child IH1 lia. child IH2 lia. assert (Z1 : sigR any (lev g d) (tz c) (tz c0)) by up. assert (Z2 : sigR any (lev g d) (tz c1) (tz c2)) by up.
    cbv zeta. eapply resR_bind; [apply (compute_or_lock (lev g d)); apply with_end_lock; auto; apply smax_tm; eauto with lock|]. intros z z' Z.
    apply (finish_rob g d n n' _ _ (fun m => TOr m c c1) (fun m => TOr m c0 c2)); auto. intros; apply (R_or _ _ d d1 d2); auto.
  - pose proof (lev_le g g d1 d ltac:(lia) L1). pose proof (lev_le g g d2 d ltac:(lia) L2). cbn [compute_rob].
    child IH1 lia. child IH2 lia. assert (Z1 : sigR any (lev g d) (tz c) (tz c0)) by up. assert (Z2 : sigR any (lev g d) (tz c1) (tz c2)) by up.
    eapply resR_bind; [apply (compute_implies_lock (lev g d)); auto|]. intros z z' Z.
    apply (finish_rob g d n n' _ _ (fun m => TImp m c c1) (fun m => TImp m c0 c2)); auto. intros; apply (R_imp _ _ d d1 d2); auto.
  - pose proof (lev_lt g d1 d L1). cbn [compute_rob]. cbv zeta. rewrite EM, EM'. child IH lia.
    pose proof (tm_range _ _ _ (sig_begin _ _ _ _ B)) as R1. pose proof (tm_range _ _ _ He) as R2.
    assert (Hg : (g <= lev g d1)%Z) by (unfold lev; nia).
    eapply resR_bind.
    { apply (timed_ev_lock (lev g d1) w (nz n) (nz n')); [eapply sig_le; [apply Hz; auto|]; lia|exact B|exact Wa|exact Wb|lia]. }
    intros z z' Z.
    assert (Et : tm (lev g d1 + 5 * w) (smin (endTime z) (end_time n)) (smin (endTime z') (end_time n'))).
    { apply smin_tm; [apply Z|]. eapply tm_le; [exact He|]. lia. }
    assert (Eb : tm (lev g d1 + 6 * w) (nsub (smin (endTime z) (end_time n)) (bound_value E (iend i))) (nsub (smin (endTime z') (end_time n')) (bound_value E' (iend i')))).
    { replace (lev g d1 + 6 * w)%Z with (lev g d1 + 5 * w + w)%Z by ring. apply tm_sub; auto. lia. }
    assert (B' : sigR any (lev g d1 + 6 * w) (tz c0) (tz c1)) by up.
    eapply resR_bind; [apply (resize_lock any (lev g d1 + 6 * w)); eauto with lock|]. intros y y' Y.
    assert (Zd : sigR any (lev g d) z z') by (eapply sig_le; [exact Z|]; lia).
    assert (Etd : tm (lev g d) (smin (endTime z) (end_time n)) (smin (endTime z') (end_time n'))) by (eapply tm_le; [exact Et|]; lia).
    eapply resR_bind; [apply (resize_lock any (lev g d)); eauto with lock|]. intros z1 z1' Z1.
    eapply resR_bind; [apply (front_lock _ _ _ _ Z1)|]. intros v1 v1' V1. split; [exact V1|]. cbn [snd]. split; [|exact Z1].
    econstructor; [|split; eassumption|exact L1| | |discriminate].
    + apply RT_set; [exact A| |reflexivity|reflexivity]. eapply nR_z; [exact (RT_node _ _ _ _ _ A)|]. rewrite lev_shift. up.
    + eapply nR_le; [eapply nR_z; [exact Nn|exact Z1]|]. rewrite lev_shift. lia.
    + change (tm (g + 7 * w) (end_time n) (end_time n')). eapply tm_le; [exact He|]. lia.
  - pose proof (lev_lt g d1 d L1). cbn [compute_rob]. cbv zeta. rewrite EM, EM'. child IH lia.
    pose proof (tm_range _ _ _ (sig_begin _ _ _ _ B)) as R1.
    assert (B' : sigR any (lev g d - 5 * w) (tz c0) (tz c1)) by up.
    eapply resR_bind.
    { apply (timed_alw_lock (lev g d - 5 * w) w (nz n) (nz n')); [eapply sig_le; [apply Nn|]; lia|exact B'|exact Wa|exact Wb|lia]. }
    intros z z' Z. replace (lev g d - 5 * w + 5 * w)%Z with (lev g d) in Z by ring.
    assert (Etd : tm (lev g d) (smin (endTime z) (end_time n)) (smin (endTime z') (end_time n'))) by (apply smin_tm; [apply Z|apply Nn]).
    eapply resR_bind; [apply (resize_lock any (lev g d)); eauto with lock|]. intros z1 z1' Z1.
    apply (finish_rob g d n n' _ _ (fun m => TAlw m i c0) (fun m => TAlw m i' c1)); auto. intros; apply (R_alw _ _ d d1); auto. split; auto.
  - pose proof (lev_lt g d1 d L1). pose proof (lev_lt g d2 d L2). cbn [compute_rob]. cbv zeta. rewrite EM, EM'. child IH1 lia. child IH2 lia.
    pose proof (tm_range _ _ _ (sig_begin _ _ _ _ B)) as R1. pose proof (tm_range _ _ _ (sig_begin _ _ _ _ B0)) as R2.
    assert (B1 : sigR any (lev g d - 5 * w) (tz c) (tz c0)) by up. assert (B2 : sigR any (lev g d - 5 * w) (tz c1) (tz c2)) by up.
    eapply resR_bind.
    { apply (timed_until_lock (lev g d - 5 * w) w (nz n) (nz n')); [eapply sig_le; [apply Nn|]; lia|exact B1|exact B2|exact Wa|exact Wb|lia]. }
    intros z z' Z. replace (lev g d - 5 * w + 5 * w)%Z with (lev g d) in Z by ring.
    eapply resR_bind; [apply (resize_lock any (lev g d)); eauto with lock; apply tm_0; auto|]. intros z1 z1' Z1.
    apply (finish_rob g d n n' _ _ (fun m => TUntil m c i c1) (fun m => TUntil m c0 i' c2)); auto. intros; apply (R_until _ _ d d1 d2); auto. split; auto.
Qed.

(** The bounds. *)
Definition bR g d (x : float * tree float) (x' : Qc * tree Qc) : Prop := den (fst x) (fst x') /\ RT false g d (snd x) (snd x').
Lemma empty_same : forall P b z z', sigR P b z z' -> is_empty z = is_empty z'.
Proof. intros P b z z' (A & _). unfold is_empty. destruct A; auto. Qed.
Lemma fill_lock : forall b z z' t t' v v', sigR any b z z' -> tm b t t' -> den v v' -> resR (sigR any b) (fill_empty PREVIOUS z t v) (fill_empty PREVIOUS z' t' v').
Proof.
  intros b z z' t t' v v' Z H V. unfold fill_empty. rewrite (empty_same _ _ _ _ Z). destruct (is_empty z'); [|exact Z]. apply append_lock; auto.
Qed.
Lemma default_den : forall up : bool, den (if up then TOP M else BOTTOM M) (if up then TOP M' else BOTTOM M').
Proof. intros []; [exact HM|exact denM]. Qed.
Definition put {T} (up : bool) (n : nst T) z := if up then with_up n z else with_low n z.
Definition zb {T} (up : bool) (t : tree T) := if up then tup t else tlow t.
Definition zn {T} (up : bool) (n : nst T) := if up then nup n else nlow n.
Lemma put_lock : forall up b n n' z z', nR any b n n' -> sigR any b z z' -> nR any b (put up n z) (put up n' z').
Proof. intros [] b n n' z z' Nn Z; [apply nR_up|apply nR_low]; auto. Qed.
Lemma put_end : forall T up (n : nst T) z, end_time (put up n z) = end_time n.
Proof. intros T []; reflexivity. Qed.
Lemma zb_lock : forall up g d t t', RT false g d t t' -> sigR any (lev g d) (zb up t) (zb up t').
Proof. intros [] g d t t' H; [apply (n_up _ _ _ _ (RT_node _ _ _ _ _ H))|apply (n_low _ _ _ _ (RT_node _ _ _ _ _ H))]. Qed.
Lemma zn_lock : forall up P b n n', nR P b n n' -> sigR any b (zn up n) (zn up n').
Proof. intros [] P b n n' H; [exact (n_up _ _ _ _ H)|exact (n_low _ _ _ _ H)]. Qed.
Lemma finish_bound : forall up g d n n' z z' (mk : nst float -> tree float) (mk' : nst Qc -> tree Qc),
  nR any (lev g d) n n' -> sigR any (lev g d) z z' ->
  (forall m m', nR any (lev g d) m m' -> end_time m = end_time n -> end_time m' = end_time n' -> RT false g d (mk m) (mk' m')) ->
  resR (bR g d) (v <- front_value z ;; Ok (v, mk (put up n z))) (v <- front_value z' ;; Ok (v, mk' (put up n' z'))).
Proof.
  intros up g d n n' z z' mk mk' Nn Z H. eapply resR_bind; [apply (front_lock _ _ _ _ Z)|]. intros v v' V. split; [exact V|].
  cbn [snd]. apply H; [apply put_lock; auto|apply put_end|apply put_end].
Qed.
Lemma finish_default : forall (up : bool) g d n n' (mk : nst float -> tree float) (mk' : nst Qc -> tree Qc) v v',
  nR any (lev g d) n n' -> den v v' ->
  (forall m m', nR any (lev g d) m m' -> end_time m = end_time n -> end_time m' = end_time n' -> RT false g d (mk m) (mk' m')) ->
  resR (bR g d) (z <- appendSample PREVIOUS (zn up n) (start_time n) v ;; Ok (v, mk (put up n z)))
                (z <- appendSample PREVIOUS (zn up n') (start_time n') v' ;; Ok (v', mk' (put up n' z))).
Proof.
  intros up g d n n' mk mk' v v' Nn V H. eapply resR_bind; [apply (append_lock any (lev g d)); [eapply zn_lock; eauto|exact (n_start _ _ _ _ Nn)|exact V|exact Logic.I]|].
  intros z z' Z. split; [exact V|]. cbn [snd]. apply H; [apply put_lock; auto|apply put_end|apply put_end].
Qed.
(** resize, fill, answer *)
Lemma finish_fill : forall up g d n n' z z' e e' v v' r r' (mk : nst float -> tree float) (mk' : nst Qc -> tree Qc),
  nR any (lev g d) n n' -> sigR any (lev g d) z z' -> tm (lev g d) e e' -> den v v' -> den r r' ->
  (forall m m', nR any (lev g d) m m' -> end_time m = end_time n -> end_time m' = end_time n' -> RT false g d (mk m) (mk' m')) ->
  resR (bR g d) (y <- resize z (start_time n) e r ;; x <- fill_empty PREVIOUS y (start_time n) v ;; u <- front_value x ;; Ok (u, mk (put up n x)))
                (y <- resize z' (start_time n') e' r' ;; x <- fill_empty PREVIOUS y (start_time n') v' ;; u <- front_value x ;; Ok (u, mk' (put up n' x))).
Proof.
  intros up g d n n' z z' e e' v v' r r' mk mk' Nn Z He V R H.
  eapply resR_bind; [apply (resize_lock any (lev g d)); eauto with lock|]. intros y y' Y.
  eapply resR_bind; [apply (fill_lock (lev g d)); eauto with lock|]. intros x x' X. apply finish_bound; auto.
Qed.
Lemma default_bound_lock : forall up g d v v' t t', RT false g d t t' -> den v v' -> resR (bR g d) (default_bound E up (v, t)) (default_bound E' up (v', t')).
Proof.
  intros up g d v v' t t' H V. unfold default_bound. cbn [snd]. pose proof (RT_node _ _ _ _ _ H) as Nn. rewrite Ip, Ip', EM, EM'. cmps.
  destruct (nltb _ _).
  - eapply resR_bind; [apply (append_lock any (lev g d)); [destruct up; apply Nn|exact (n_start _ _ _ _ Nn)|exact denM|exact Logic.I]|]. intros z z' Z.
    apply (finish_bound up g d _ _ z z' (set_node t) (set_node t')); auto. intros; apply RT_set; auto.
  - apply (finish_bound up g d _ _ _ _ (set_node t) (set_node t')); auto; [apply Nn|]. intros; apply RT_set; auto.
Qed.
Ltac bchild IH L0 := eapply resR_bind; [apply IH; L0|]; let v := fresh "v" in let c := fresh "c" in let v' := fresh "v" in let c' := fresh "c" in
  let A := fresh "V" in let B := fresh "B" in intros [v c] [v' c'] (A & B); cbn [fst snd] in A, B.
Lemma bound_lock : forall g d t t', (g0 <= g)%Z -> RT false g d t t' -> (2 * lev g d + 4 * w <= top)%Z ->
  forall up, resR (bR (g + 2 * w) d) (compute_bound E up t) (compute_bound E' up t').
Proof.
  intros g d t t' G H. remember (g + 2 * w)%Z as h eqn:Hh.
  induction H as [d n n' P Q l l' r r' op Xl Xr HR Nn0|d n n' c c' H IH Nn0|d d1 d2 n n' l l' r r' H1 IH1 H2 IH2 L1 L2 Nn0|d d1 d2 n n' l l' r r' H1 IH1 H2 IH2 L1 L2 Nn0|d d1 d2 n n' l l' r r' H1 IH1 H2 IH2 L1 L2 Nn0|d d1 n n' i i' c c' H IH [Wa Wb] L1 Nn0 He Hz|d d1 n n' i i' c c' H IH [Wa Wb] L1 Nn0|d d1 d2 n n' i i' l l' r r' H1 IH1 H2 IH2 [Wa Wb] L1 L2 Nn0]; intros L up; pose proof (tm_range _ _ _ (n_start _ _ _ _ Nn0)) as R0; pose proof (default_den up) as Dd;
    assert (Lh : lev h d = (lev g d + 2 * w)%Z) by (subst h; apply lev_shift); assert (Nn : nR any (lev h d) n n') by (eapply nR_le; [exact Nn0|lia]).
  - cbn [compute_bound]. eapply resR_bind; [apply (atom_lock false g d n n' P Q); auto|]. intros [v t] [v' t'] [A B]. apply default_bound_lock; auto. eapply RT_le; [exact B|lia|lia].
  - cbn [compute_bound]. cbv zeta. rewrite Ip, Ip', EM, EM'. bchild IH lia.
    assert (Zc : sigR any (lev h d) (if up then tlow c0 else tup c0) (if up then tlow c1 else tup c1)) by (destruct up; [apply (zb_lock false)|apply (zb_lock true)]; auto).
    rewrite (empty_same _ _ _ _ Zc). destruct (is_empty _).
    + apply (finish_default up h d n n' (fun m => TNot m c0) (fun m => TNot m c1)); auto. intros; constructor; auto.
    + apply (finish_bound up h d n n' _ _ (fun m => TNot m c0) (fun m => TNot m c1)); auto; [apply not_lock; exact Zc|]. intros; constructor; auto.
  - pose proof (lev_le h h d1 d ltac:(lia) L1). pose proof (lev_le h h d2 d ltac:(lia) L2). pose proof (lev_le g g d1 d ltac:(lia) L1). pose proof (lev_le g g d2 d ltac:(lia) L2).
    cbn [compute_bound]. cbv zeta. rewrite Ip, Ip', EM, EM'.
    bchild IH1 lia. bchild IH2 lia. pose proof (zb_lock up _ _ _ _ B) as Z1. pose proof (zb_lock up _ _ _ _ B0) as Z2.
    assert (Z1' : sigR any (lev h d) (zb up c) (zb up c0)) by (eapply sig_le; [exact Z1|lia]).
    assert (Z2' : sigR any (lev h d) (zb up c1) (zb up c2)) by (eapply sig_le; [exact Z2|lia]).
    eapply resR_bind; [apply (compute_and_lock (lev h d)); [exact Z1'|exact Z2']|]. intros z z' Z.
    apply (finish_fill up h d n n' z z' _ _ _ _ _ _ (fun m => TAnd m c c1) (fun m => TAnd m c0 c2)); auto.
    + destruct up; [apply Z|]. apply smin_tm; [apply Z1'|apply Z2'].
    + intros; apply (R_and _ _ d d1 d2); auto.
  - pose proof (lev_le h h d1 d ltac:(lia) L1). pose proof (lev_le h h d2 d ltac:(lia) L2). pose proof (lev_le g g d1 d ltac:(lia) L1). pose proof (lev_le g g d2 d ltac:(lia) L2).
    cbn [compute_bound]. cbv zeta. rewrite Ip, Ip', EM, EM'.
    bchild IH1 lia. bchild IH2 lia. pose proof (zb_lock up _ _ _ _ B) as Z1. pose proof (zb_lock up _ _ _ _ B0) as Z2.
    assert (Z1' : sigR any (lev h d) (zb up c) (zb up c0)) by (eapply sig_le; [exact Z1|lia]).
    assert (Z2' : sigR any (lev h d) (zb up c1) (zb up c2)) by (eapply sig_le; [exact Z2|lia]).
    eapply resR_bind; [apply (compute_or_lock (lev h d)); [exact Z1'|exact Z2']|]. intros z z' Z.
    apply (finish_fill up h d n n' z z' _ _ _ _ _ _ (fun m => TOr m c c1) (fun m => TOr m c0 c2)); auto.
    + destruct up; [|apply Z]. apply smin_tm; [apply Z1'|apply Z2'].
    + intros; apply (R_or _ _ d d1 d2); auto.
  - pose proof (lev_le h h d1 d ltac:(lia) L1). pose proof (lev_le h h d2 d ltac:(lia) L2). pose proof (lev_le g g d1 d ltac:(lia) L1). pose proof (lev_le g g d2 d ltac:(lia) L2).
    cbn [compute_bound]. cbv zeta. rewrite Ip, Ip', EM, EM'.
    bchild IH1 lia. bchild IH2 lia. pose proof (zb_lock (negb up) _ _ _ _ B) as Z1. pose proof (zb_lock up _ _ _ _ B0) as Z2.
    assert (Z1' : sigR any (lev h d) (compute_not (if up then tlow c else tup c)) (compute_not (if up then tlow c0 else tup c0))).
    { apply not_lock. destruct up; (eapply sig_le; [exact Z1|lia]). }
    assert (Z2' : sigR any (lev h d) (zb up c1) (zb up c2)) by (eapply sig_le; [exact Z2|lia]).
    eapply resR_bind; [apply (compute_or_lock (lev h d)); [exact Z1'|exact Z2']|]. intros z z' Z.
    apply (finish_fill up h d n n' z z' _ _ _ _ _ _ (fun m => TImp m c c1) (fun m => TImp m c0 c2)); auto.
    + destruct up; [|apply Z]. apply smin_tm; [apply Z1'|apply Z2'].
    + intros; apply (R_imp _ _ d d1 d2); auto.
  - pose proof (lev_lt g d1 d L1). assert (Lh1 : lev h d1 = (lev g d1 + 2 * w)%Z) by (subst h; apply lev_shift).
    cbn [compute_bound]. cbv zeta. rewrite Ip, Ip', EM, EM'. bchild IH lia.
    pose proof (zb_lock up _ _ _ _ B) as Zb. pose proof (tm_range _ _ _ (sig_begin _ _ _ _ Zb)) as R1. fold (zb up c0) (zb up c1) (zn up n) (zn up n').
    assert (Zb' : sigR any (lev g d - 5 * w) (zb up c0) (zb up c1)) by (eapply sig_le; [exact Zb|lia]).
    assert (MK : forall m m', nR any (lev h d) m m' -> end_time m = end_time n -> end_time m' = end_time n' -> RT false h d (TEv m i c0) (TEv m' i' c1)).
    { intros m m' Hm E1 E2; apply (R_ev _ _ d d1); auto; [split; auto| |discriminate]. rewrite E1, E2. eapply tm_le; [exact He|]. split; [lia|]. unfold lev in *. nia. }
    rewrite (ltbR _ _ (endTime (zb up c1)) (bound_value E' (ibegin i'))) by eauto with lock.
    destruct (nltb _ _).
    { apply (finish_default up h d n n' (fun m => TEv m i c0) (fun m => TEv m i' c1)); auto. }
    eapply resR_bind.
    { apply (timed_ev_lock (lev g d - 5 * w) w); [|exact Zb'|exact Wa|exact Wb|lia].
      replace (lev g d - 5 * w + 5 * w)%Z with (lev g d) by ring. eapply zn_lock; exact Nn0. }
    intros z z' Z. replace (lev g d - 5 * w + 5 * w)%Z with (lev g d) in Z by ring.
    assert (Zh : sigR any (lev h d) z z') by (eapply sig_le; [exact Z|lia]).
    assert (Eu : tm (lev h d) (nadd (nsub (endTime z) (bound_value E (iend i))) (bound_value E (ibegin i))) (nadd (nsub (endTime z') (bound_value E' (iend i'))) (bound_value E' (ibegin i')))).
    { rewrite Lh. replace (lev g d + 2 * w)%Z with (lev g d + w + w)%Z by ring. apply tm_add; auto; [apply tm_sub; auto; [apply Z|lia]|lia]. }
    destruct up.
    + apply (finish_fill true h d n n' z z' _ _ _ _ _ _ (fun m => TEv m i c0) (fun m => TEv m i' c1)); auto; [|exact den0]. apply smin_tm; [exact Eu|apply Nn].
    + apply (finish_fill false h d n n' z z' _ _ _ _ _ _ (fun m => TEv m i c0) (fun m => TEv m i' c1)); auto; [|exact den0]. apply smax_tm; [apply Nn|]. apply smin_tm; [apply Zh|apply Nn].
  - pose proof (lev_lt g d1 d L1). assert (Lh1 : lev h d1 = (lev g d1 + 2 * w)%Z) by (subst h; apply lev_shift).
    cbn [compute_bound]. cbv zeta. rewrite Ip, Ip', EM, EM'. bchild IH lia.
    pose proof (zb_lock up _ _ _ _ B) as Zb. pose proof (tm_range _ _ _ (sig_begin _ _ _ _ Zb)) as R1. fold (zb up c0) (zb up c1) (zn up n) (zn up n').
    assert (Zb' : sigR any (lev g d - 5 * w) (zb up c0) (zb up c1)) by (eapply sig_le; [exact Zb|lia]).
    assert (MK : forall m m', nR any (lev h d) m m' -> end_time m = end_time n -> end_time m' = end_time n' -> RT false h d (TAlw m i c0) (TAlw m' i' c1)).
    { intros m m' Hm E1 E2; apply (R_alw _ _ d d1); auto. split; auto. }
    rewrite (ltbR _ _ (endTime (zb up c1)) (bound_value E' (ibegin i'))) by eauto with lock.
    destruct (nltb _ _).
    { apply (finish_default up h d n n' (fun m => TAlw m i c0) (fun m => TAlw m i' c1)); auto. }
    eapply resR_bind.
    { apply (timed_alw_lock (lev g d - 5 * w) w); [|exact Zb'|exact Wa|exact Wb|lia].
      replace (lev g d - 5 * w + 5 * w)%Z with (lev g d) by ring. eapply zn_lock; exact Nn0. }
    intros z z' Z. replace (lev g d - 5 * w + 5 * w)%Z with (lev g d) in Z by ring.
    assert (Zh : sigR any (lev h d) z z') by (eapply sig_le; [exact Z|lia]).
    assert (Eu : tm (lev h d) (nadd (nsub (endTime z) (bound_value E (iend i))) (bound_value E (ibegin i))) (nadd (nsub (endTime z') (bound_value E' (iend i'))) (bound_value E' (ibegin i')))).
    { rewrite Lh. replace (lev g d + 2 * w)%Z with (lev g d + w + w)%Z by ring. apply tm_add; auto; [apply tm_sub; auto; [apply Z|lia]|lia]. }
    destruct up.
    + apply (finish_fill true h d n n' z z' _ _ _ _ _ _ (fun m => TAlw m i c0) (fun m => TAlw m i' c1)); auto; [|exact den0]. apply smax_tm; [apply Nn|]. apply smin_tm; [apply Zh|apply Nn].
    + apply (finish_fill false h d n n' z z' _ _ _ _ _ _ (fun m => TAlw m i c0) (fun m => TAlw m i' c1)); auto; [|exact den0]. apply smin_tm; [exact Eu|apply Nn].
  - pose proof (lev_lt g d1 d L1). pose proof (lev_lt g d2 d L2). assert (Lh1 : lev h d1 = (lev g d1 + 2 * w)%Z) by (subst h; apply lev_shift). assert (Lh2 : lev h d2 = (lev g d2 + 2 * w)%Z) by (subst h; apply lev_shift).
    cbn [compute_bound]. cbv zeta. rewrite EM, EM'. bchild IH1 lia.
    rewrite (eqbR _ _ _ _ V Dd). destruct (neqb _ _).
    { split; [exact Dd|]. cbn [snd]. apply (R_until _ _ d d1 d2); auto; [|split; auto]. eapply RT_le; [exact H2|lia|lia]. }
    bchild IH2 lia. rewrite (eqbR _ _ _ _ V0 Dd). destruct (neqb _ _).
    { split; [exact Dd|]. cbn [snd]. apply (R_until _ _ d d1 d2); auto. split; auto. }
    pose proof (zb_lock up _ _ _ _ B) as Z1. pose proof (zb_lock up _ _ _ _ B0) as Z2. fold (zb up c) (zb up c0) (zb up c1) (zb up c2) (zn up n) (zn up n').
    pose proof (tm_range _ _ _ (sig_begin _ _ _ _ Z1)) as R1. pose proof (tm_range _ _ _ (sig_begin _ _ _ _ Z2)) as R2.
    assert (Z1' : sigR any (lev g d - 5 * w) (zb up c) (zb up c0)) by (eapply sig_le; [exact Z1|lia]).
    assert (Z2' : sigR any (lev g d - 5 * w) (zb up c1) (zb up c2)) by (eapply sig_le; [exact Z2|lia]).
    eapply resR_bind.
    { apply (timed_until_lock (lev g d - 5 * w) w); [|exact Z1'|exact Z2'|exact Wa|exact Wb|lia].
      replace (lev g d - 5 * w + 5 * w)%Z with (lev g d) by ring. eapply zn_lock; exact Nn0. }
    intros z z' Z. replace (lev g d - 5 * w + 5 * w)%Z with (lev g d) in Z by ring.
    assert (Zh : sigR any (lev h d) z z') by (eapply sig_le; [exact Z|lia]).
    assert (Eu : tm (lev h d) (if up then nsub (endTime z) (bound_value E (iend i)) else endTime z) (if up then nsub (endTime z') (bound_value E' (iend i')) else endTime z')).
    { destruct up; [|apply Zh]. apply (tm_le (lev g d + w)); [apply tm_sub; auto; [apply Z|lia]|lia]. }
    eapply resR_bind.
    { apply (resize_lock any (lev h d)); [exact Zh|apply Nn| |exact den0|exact Logic.I|exact Logic.I]. apply smax_tm; [apply Nn|]. apply smin_tm; [exact Eu|apply Nn]. }
    intros y y' Y. rewrite (empty_same _ _ _ _ Y). apply (resR_bind _ _ _ _ den).
    { destruct (is_empty y'); [exact Dd|apply (front_lock _ _ _ _ Y)]. }
    intros x x' X. split; [exact X|]. cbn [snd]. apply (R_until _ _ d d1 d2); auto; [split; auto|]. apply (put_lock up); auto.
Qed.
End Tree.

(** ** The robustness pass alone, for any lockstep of the comparisons *)
Section Pass.
Local Hint Resolve n_z n_up n_low n_start n_end : lock.
Variables (E : env float) (E' : env Qc) (w : Z).
Hypothesis (EM : e_M E = M) (EM' : e_M E' = M').
Hypothesis (W0 : (0 <= w)%Z).
Local Notation lev := (lev w).
Local Notation winR := (winR E E' w).
Definition oneR g d (x : float * tree float) (x' : Qc * tree Qc) : Prop :=
  den (fst x) (fst x') /\ sigR any (lev g d) (tz (snd x)) (tz (snd x')).
Inductive RS (g : Z) : nat -> tree float -> tree Qc -> Prop :=
| S_atom : forall d n n' l l' op op' r r', nR any (lev g d) n n' ->
    resR (oneR g d) (compute_rob E (TAtom n l op r)) (compute_rob E' (TAtom n' l' op' r')) -> RS g d (TAtom n l op r) (TAtom n' l' op' r')
| S_not : forall d n n' c c', RS g d c c' -> nR any (lev g d) n n' -> RS g d (TNot n c) (TNot n' c')
| S_and : forall d d1 d2 n n' l l' r r', RS g d1 l l' -> RS g d2 r r' -> (d1 <= d)%nat -> (d2 <= d)%nat -> nR any (lev g d) n n' -> RS g d (TAnd n l r) (TAnd n' l' r')
| S_or : forall d d1 d2 n n' l l' r r', RS g d1 l l' -> RS g d2 r r' -> (d1 <= d)%nat -> (d2 <= d)%nat -> nR any (lev g d) n n' -> RS g d (TOr n l r) (TOr n' l' r')
| S_imp : forall d d1 d2 n n' l l' r r', RS g d1 l l' -> RS g d2 r r' -> (d1 <= d)%nat -> (d2 <= d)%nat -> nR any (lev g d) n n' -> RS g d (TImp n l r) (TImp n' l' r')
| S_ev : forall d d1 n n' i i' c c', RS g d1 c c' -> winR i i' -> (d1 < d)%nat -> nR any (lev g d) n n' ->
    tm g (end_time n) (end_time n') -> sigR any g (nz n) (nz n') -> RS g d (TEv n i c) (TEv n' i' c')
| S_alw : forall d d1 n n' i i' c c', RS g d1 c c' -> winR i i' -> (d1 < d)%nat -> nR any (lev g d) n n' -> RS g d (TAlw n i c) (TAlw n' i' c')
| S_until : forall d d1 d2 n n' i i' l l' r r', RS g d1 l l' -> RS g d2 r r' -> winR i i' -> (d1 < d)%nat -> (d2 < d)%nat -> nR any (lev g d) n n' ->
    RS g d (TUntil n l i r) (TUntil n' l' i' r').
Ltac child IH L0 := eapply resR_bind; [apply IH; L0|]; let v := fresh "v" in let c := fresh "c" in let v' := fresh "v" in let c' := fresh "c" in
  let B := fresh "B" in intros [v c] [v' c'] (_ & B); cbn [fst snd] in B.
Ltac up := (eapply sig_le || eapply tm_le); [eassumption|]; lia.
Lemma finish_one : forall g d n n' z z' (mk : nst float -> tree float) (mk' : nst Qc -> tree Qc),
  sigR any (lev g d) z z' -> (forall m, node (mk m) = m) -> (forall m, node (mk' m) = m) ->
  resR (oneR g d) (v <- front_value z ;; Ok (v, mk (with_z n z))) (v <- front_value z' ;; Ok (v, mk' (with_z n' z'))).
Proof.
  intros g d n n' z z' mk mk' Z N1 N2. eapply resR_bind; [apply (front_lock _ _ _ _ Z)|]. intros v v' V. split; [exact V|].
  cbn [snd]. unfold tz. rewrite N1, N2. exact Z.
Qed.
Lemma pass_lock : forall g d t t', RS g d t t' -> (2 * (lev g d + 7 * w) <= top)%Z ->
  resR (oneR g d) (compute_rob E t) (compute_rob E' t').
Proof.
  intros g d t t' H. induction H as [d n n' l l' op op' r r' Nn A|d n n' c c' H IH Nn|d d1 d2 n n' l l' r r' H1 IH1 H2 IH2 L1 L2 Nn|d d1 d2 n n' l l' r r' H1 IH1 H2 IH2 L1 L2 Nn|d d1 d2 n n' l l' r r' H1 IH1 H2 IH2 L1 L2 Nn|d d1 n n' i i' c c' H IH [Wa Wb] L1 Nn He Hz|d d1 n n' i i' c c' H IH [Wa Wb] L1 Nn|d d1 d2 n n' i i' l l' r r' H1 IH1 H2 IH2 [Wa Wb] L1 L2 Nn]; intros L; pose proof (tm_range _ _ _ (n_start _ _ _ _ Nn)) as R0.
  - exact A.
  - cbn [compute_rob]. child IH lia. apply (finish_one g d n n' _ _ (fun m => TNot m c0) (fun m => TNot m c1)); auto. apply not_lock; auto.
  - pose proof (lev_le w W0 g g d1 d ltac:(lia) L1). pose proof (lev_le w W0 g g d2 d ltac:(lia) L2). cbn [compute_rob].
    child IH1 lia. child IH2 lia. assert (Z1 : sigR any (lev g d) (tz c) (tz c0)) by up. assert (Z2 : sigR any (lev g d) (tz c1) (tz c2)) by up.
    cbv zeta. eapply resR_bind; [apply (compute_and_lock (lev g d)); apply with_end_lock; auto; apply smax_tm; eauto with lock|]. intros z z' Z.
    apply (finish_one g d n n' _ _ (fun m => TAnd m c c1) (fun m => TAnd m c0 c2)); auto.
  - pose proof (lev_le w W0 g g d1 d ltac:(lia) L1). pose proof (lev_le w W0 g g d2 d ltac:(lia) L2). cbn [compute_rob].
    child IH1 lia. child IH2 lia. assert (Z1 : sigR any (lev g d) (tz c) (tz c0)) by up. assert (Z2 : sigR any (lev g d) (tz c1) (tz c2)) by up.
    cbv zeta. eapply resR_bind; [apply (compute_or_lock (lev g d)); apply with_end_lock; auto; apply smax_tm; eauto with lock|]. intros z z' Z.
    apply (finish_one g d n n' _ _ (fun m => TOr m c c1) (fun m => TOr m c0 c2)); auto.
  - pose proof (lev_le w W0 g g d1 d ltac:(lia) L1). pose proof (lev_le w W0 g g d2 d ltac:(lia) L2). cbn [compute_rob].
    child IH1 lia. child IH2 lia. assert (Z1 : sigR any (lev g d) (tz c) (tz c0)) by up. assert (Z2 : sigR any (lev g d) (tz c1) (tz c2)) by up.
    eapply resR_bind; [apply (compute_implies_lock (lev g d)); auto|]. intros z z' Z.
    apply (finish_one g d n n' _ _ (fun m => TImp m c c1) (fun m => TImp m c0 c2)); auto.
  - pose proof (lev_lt w W0 g d1 d L1). cbn [compute_rob]. cbv zeta. rewrite EM, EM'. child IH lia.
    pose proof (tm_range _ _ _ (sig_begin _ _ _ _ B)) as R1. pose proof (tm_range _ _ _ He) as R2.
    assert (Hg : (g <= lev g d1)%Z) by (unfold Lock.lev, lev; nia).
    eapply resR_bind.
    { apply (timed_ev_lock (lev g d1) w (nz n) (nz n')); [eapply sig_le; [exact Hz|]; lia|exact B|exact Wa|exact Wb|lia]. }
    intros z z' Z.
    assert (Et : tm (lev g d1 + 5 * w) (smin (endTime z) (end_time n)) (smin (endTime z') (end_time n'))).
    { apply smin_tm; [apply Z|]. eapply tm_le; [exact He|]. lia. }
    assert (Eb : tm (lev g d1 + 6 * w) (nsub (smin (endTime z) (end_time n)) (bound_value E (iend i))) (nsub (smin (endTime z') (end_time n')) (bound_value E' (iend i')))).
    { replace (lev g d1 + 6 * w)%Z with (lev g d1 + 5 * w + w)%Z by ring. apply tm_sub; auto. lia. }
    assert (B' : sigR any (lev g d1 + 6 * w) (tz c0) (tz c1)) by up.
    eapply resR_bind; [apply (resize_lock any (lev g d1 + 6 * w)); eauto with lock|]. intros y y' Y.
    assert (Zd : sigR any (lev g d) z z') by (eapply sig_le; [exact Z|]; lia).
    assert (Etd : tm (lev g d) (smin (endTime z) (end_time n)) (smin (endTime z') (end_time n'))) by (eapply tm_le; [exact Et|]; lia).
    eapply resR_bind; [apply (resize_lock any (lev g d)); eauto with lock|]. intros z1 z1' Z1.
    apply (finish_one g d n n' _ _ (fun m => TEv m i (set_node c0 (with_z (node c0) y))) (fun m => TEv m i' (set_node c1 (with_z (node c1) y')))); auto.
  - pose proof (lev_lt w W0 g d1 d L1). cbn [compute_rob]. cbv zeta. rewrite EM, EM'. child IH lia.
    pose proof (tm_range _ _ _ (sig_begin _ _ _ _ B)) as R1.
    assert (B' : sigR any (lev g d - 5 * w) (tz c0) (tz c1)) by up.
    eapply resR_bind.
    { apply (timed_alw_lock (lev g d - 5 * w) w (nz n) (nz n')); [eapply sig_le; [apply Nn|]; lia|exact B'|exact Wa|exact Wb|lia]. }
    intros z z' Z. replace (lev g d - 5 * w + 5 * w)%Z with (lev g d) in Z by ring.
    assert (Etd : tm (lev g d) (smin (endTime z) (end_time n)) (smin (endTime z') (end_time n'))) by (apply smin_tm; [apply Z|apply Nn]).
    eapply resR_bind; [apply (resize_lock any (lev g d)); eauto with lock|]. intros z1 z1' Z1.
    apply (finish_one g d n n' _ _ (fun m => TAlw m i c0) (fun m => TAlw m i' c1)); auto.
  - pose proof (lev_lt w W0 g d1 d L1). pose proof (lev_lt w W0 g d2 d L2). cbn [compute_rob]. cbv zeta. rewrite EM, EM'. child IH1 lia. child IH2 lia.
    pose proof (tm_range _ _ _ (sig_begin _ _ _ _ B)) as R1. pose proof (tm_range _ _ _ (sig_begin _ _ _ _ B0)) as R2.
    assert (B1 : sigR any (lev g d - 5 * w) (tz c) (tz c0)) by up. assert (B2 : sigR any (lev g d - 5 * w) (tz c1) (tz c2)) by up.
    eapply resR_bind.
    { apply (timed_until_lock (lev g d - 5 * w) w (nz n) (nz n')); [eapply sig_le; [apply Nn|]; lia|exact B1|exact B2|exact Wa|exact Wb|lia]. }
    intros z z' Z. replace (lev g d - 5 * w + 5 * w)%Z with (lev g d) in Z by ring.
    eapply resR_bind; [apply (resize_lock any (lev g d)); eauto with lock; apply tm_0; auto|]. intros z1 z1' Z1.
    apply (finish_one g d n n' _ _ (fun m => TUntil m c i c1) (fun m => TUntil m c0 i' c2)); auto.
Qed.
End Pass.
End Lock.
