(** The robustness pass over formulas with until, on held signals. *)
From Coq Require Import List QArith Qcanon Bool String Lia.
From Verif Require Import Num Base Signal QcTac Spec Robust Repr Transducer StlSpec TreeProof ExprPass NodeProof TreeRob Front UntilTimed UntilTree StepSig StepBool StepSpec StepTree StepClaims StepUntil StepUntilSpec StlClaims.
Import ListNotations.
Local Open Scope Qc_scope.

Lemma top_jfront : forall z s e g, top z s e g -> s <= e -> jfront s (g s) z.
Proof.
  intros z s e g [A1 A2 A3 (p & l & A4 & A5 & A6 & A7) A8] H. split; [rewrite A1; apply Qcle_refl|]. split; [rewrite A2; exact H|].
  exists p, l. split; [exact A4|]. split; [congruence|]. split; [|apply sp_later; exact A7].
  unfold Front.good, line. rewrite A5, A6. split; [apply Qcle_refl|]. split; [reflexivity|ring].
Qed.

Section Pass.
Variable E : env Qc.
Variable w : nat.
Hypothesis PRV : e_ip E = PREVIOUS.
Hypothesis SPC : e_sem E = SPACE.
Hypothesis TR : trace w (e_data E).

Notation T := (last_time (e_data E)).
Notation val := (bound_value E).
Notation cst := (eff E).
Notation D := (e_data E).
Notation M := (e_M E).
Notation prep := (ExprPass.prep E).
Notation Rob := (rob_of held cst val D).

Lemma timed_front_pass : forall f s e, timed val w f -> 0 <= s -> s <= e -> covers val T f e -> within_of held cst val D M f ->
  at_samples val D f s e -> steady_ends held cst val D f s e ->
  exists v t, compute_rob E (prep f s e) = Ok (v, t) /\ jfront s v (tz t) /\ Rob f s v.
Proof.
  intros f s e F H0 H1 C W A ST.
  destruct (step_pass E w PRV SPC TR f s e F H0 H1 C W A ST) as (v & t & g & A1 & A2 & A3 & A4 & A5 & ->).
  exists (g s), t. split; [exact A1|]. split; [|apply A5; qlra]. apply step_top in A2. rewrite A3, A4 in A2. eapply top_jfront; eauto.
Qed.

Lemma held_until_pass : forall f s e, utimed val w f -> 0 <= s -> s <= e -> covers val T f e -> within_of held cst val D M f ->
  uat_samples val D f s e -> usettled held cst val D f s e ->
  exists v t, compute_rob E (prep f s e) = Ok (v, t) /\ jfront s v (tz t) /\ Rob f s v.
Proof.
  induction f; intros s e F H0 H1 C W A ST; cbn [utimed] in F; try contradiction; try (apply timed_front_pass; assumption).
  - (* not *)
    destruct (IHf s e F H0 H1 C W A ST) as (v & t & A1 & A2 & A3).
    change (prep (FNot f) s e) with (TNot (fresh s e) (prep f s e)). cbn [compute_rob]. rewrite A1. cbn [bind].
    pose proof (jfront_not _ _ _ A2) as R. rewrite (jfront_front _ _ _ R). cbn [bind].
    do 2 eexists. split; [reflexivity|]. split; [exact R|]. cbn [rob_of]; eauto.
  - (* and *)
    destruct F as [F1 F2]. destruct C as [C1 C2]. destruct W as [W1 W2]. destruct A as [S1 S2]. destruct ST as [T1 T2].
    destruct (IHf1 s e F1 H0 H1 C1 W1 S1 T1) as (v1 & t1 & A1 & A2 & A3).
    destruct (IHf2 s e F2 H0 H1 C2 W2 S2 T2) as (v2 & t2 & B1 & B2 & B3).
    change (prep (FAnd f1 f2) s e) with (TAnd (fresh s e) (prep f1 s e) (prep f2 s e)). cbn [compute_rob].
    rewrite A1. cbn [bind]. rewrite B1. cbn [bind].
    destruct (smax_le (endTime (tz t1)) (endTime (tz t2))) as [L1 L2].
    destruct (jfront_and s v1 v2 _ _ (jfront_with_end _ _ _ _ A2 (Qcle_trans _ _ _ (proj1 (proj2 A2)) L1)) (jfront_with_end _ _ _ _ B2 (Qcle_trans _ _ _ (proj1 (proj2 B2)) L2))) as (z & Z1 & _ & _ & Z2).
    rewrite Z1. cbn [bind]. rewrite (jfront_front _ _ _ Z2). cbn [bind].
    do 2 eexists. split; [reflexivity|]. split; [exact Z2|]. cbn [rob_of]; eauto 6.
  - (* or *)
    destruct F as [F1 F2]. destruct C as [C1 C2]. destruct W as [W1 W2]. destruct A as [S1 S2]. destruct ST as [T1 T2].
    destruct (IHf1 s e F1 H0 H1 C1 W1 S1 T1) as (v1 & t1 & A1 & A2 & A3).
    destruct (IHf2 s e F2 H0 H1 C2 W2 S2 T2) as (v2 & t2 & B1 & B2 & B3).
    change (prep (FOr f1 f2) s e) with (TOr (fresh s e) (prep f1 s e) (prep f2 s e)). cbn [compute_rob].
    rewrite A1. cbn [bind]. rewrite B1. cbn [bind].
    destruct (smax_le (endTime (tz t1)) (endTime (tz t2))) as [L1 L2].
    destruct (jfront_or s v1 v2 _ _ (jfront_with_end _ _ _ _ A2 (Qcle_trans _ _ _ (proj1 (proj2 A2)) L1)) (jfront_with_end _ _ _ _ B2 (Qcle_trans _ _ _ (proj1 (proj2 B2)) L2))) as (z & Z1 & _ & _ & Z2).
    rewrite Z1. cbn [bind]. rewrite (jfront_front _ _ _ Z2). cbn [bind].
    do 2 eexists. split; [reflexivity|]. split; [exact Z2|]. cbn [rob_of]; eauto 6.
  - (* implies *)
    destruct F as [F1 F2]. destruct C as [C1 C2]. destruct W as [W1 W2]. destruct A as [S1 S2]. destruct ST as [T1 T2].
    destruct (IHf1 s e F1 H0 H1 C1 W1 S1 T1) as (v1 & t1 & A1 & A2 & A3).
    destruct (IHf2 s e F2 H0 H1 C2 W2 S2 T2) as (v2 & t2 & B1 & B2 & B3).
    change (prep (FImp f1 f2) s e) with (TImp (fresh s e) (prep f1 s e) (prep f2 s e)). cbn [compute_rob].
    rewrite A1. cbn [bind]. rewrite B1. cbn [bind]. unfold compute_implies.
    destruct (jfront_or s (- v1) v2 _ _ (jfront_not _ _ _ A2) B2) as (z & Z1 & _ & _ & Z2).
    rewrite Z1. cbn [bind]. rewrite (jfront_front _ _ _ Z2). cbn [bind].
    do 2 eexists. split; [reflexivity|]. split; [exact Z2|]. cbn [rob_of]; eauto 6.
  - (* until *)
    destruct F as (F1 & F2 & F3 & F4). destruct C as [C1 C2]. destruct W as [W1 W2]. destruct A as [S1 S2]. destruct ST as (T1 & T2 & T3).
    destruct (step_pass E w PRV SPC TR f1 s (e + val (iend i))) as (v1 & t1 & g1 & A1 & A2 & A3 & A4 & A5 & _); auto; try qlra.
    destruct (step_pass E w PRV SPC TR f2 (s + val (ibegin i)) (e + val (iend i))) as (v2 & t2 & g2 & B1 & B2 & B3 & B4 & B5 & _); auto; try qlra.
    change (prep (FUntil f1 i f2) s e) with (TUntil (fresh s e) (prep f1 s (e + val (iend i))) i (prep f2 (s + val (ibegin i)) (e + val (iend i)))).
    cbn [compute_rob]. rewrite A1. cbn [bind]. rewrite B1. cbn [bind].
    destruct (timed_until_step M (nz (fresh s e)) g1 g2 (tz t1) (tz t2) (val (ibegin i)) (val (iend i)) s e) as (z & v & Z1 & Z2 & Z3 & h & Z4 & Z5); auto.
    { intros u U1 U2. eapply (timed_within held cst val D M w f1); eauto. }
    { intros u U1 U2. eapply (timed_within held cst val D M w f2); eauto. }
    { intros K. eapply (steady_quiet E f2); eauto. qlra. }
    rewrite Z1. cbn [bind].
    destruct (jfront_resize s v z n0 Z3 Z2 H0) as (z' & Y1 & Y2). change n0 with 0 in Y1 |- *. rewrite Y1. cbn [bind].
    rewrite (jfront_front _ _ _ Y2). cbn [bind].
    do 2 eexists. split; [reflexivity|]. split; [exact Y2|].
    cbn [rob_of]. rewrite TreeRob.qmin_l in Z5 by qlra. exists g1, g2, h.
    split; [intros; apply A5; qlra|]. split; [intros; apply B5; qlra|]. split; [intros; apply Z4; qlra|exact Z5].
Qed.
End Pass.

Lemma uapart_settled : forall w E f s e, trace w (e_data E) -> utimed (bound_value E) w f ->
  uapart (bound_value E) (e_data E) f s e -> usettled held (eff E) (bound_value E) (e_data E) f s e.
Proof.
  intros w E f s e TR. revert s e. induction f; intros s e F A; cbn [utimed uapart usettled] in *; auto;
    try (eapply apart_steady_ends; eauto; fail); try (destruct F, A; split; auto; fail).
  destruct F as (F1 & F2 & F3 & F4). destruct A as (A1 & A2 & A3).
  split; [eapply apart_steady_ends; eauto|]. split; [eapply apart_steady_ends; eauto|].
  intros K. eapply apart_steady; eauto.
Qed.

Lemma held_until_claim : forall w E t f s e, holding w E -> stands_for t f -> utimed (bound_value E) w f -> 0 <= s -> s <= e ->
  covers (bound_value E) (last_time (e_data E)) f e -> within_of held (eff E) (bound_value E) (e_data E) (e_M E) f ->
  uat_samples (bound_value E) (e_data E) f s e -> usettled held (eff E) (bound_value E) (e_data E) f s e ->
  (exists v t', compute_rob E (prepare E t s e) = Ok (v, t') /\ rob_of held (eff E) (bound_value E) (e_data E) f s v) /\
  forall v lo up, numbers (evaluate E t s e) = Ok (v, lo, up) -> rob_of held (eff E) (bound_value E) (e_data E) f s v.
Proof.
  intros w E t f s e (PRV & SPC & TR) SF F H0 H1 C W A ST.
  destruct (held_until_pass E w PRV SPC TR f s e F H0 H1 C W A ST) as (v & t' & A1 & A2 & A3). unfold ExprPass.prep in A1.
  split.
  - pose proof (compute_rob_sim E _ _ (prepare_sim_skel E _ _ s e SF)) as SM. rewrite A1 in SM.
    destruct (compute_rob E (prepare E t s e)) as [[v' t2]| | | |]; cbn [same] in SM; try contradiction.
    destruct SM as [<- _]. exists v', t2. split; [reflexivity|exact A3].
  - intros v' lo up N. rewrite (evaluate_skel E t (build f) s e SF) in N. destruct (numbers_ok _ _ _ _ _ _ _ N) as (t1 & t2 & t3 & R & _).
    rewrite A1 in R. injection R as <- _. exact A3.
Qed.
