(** The three numbers of a comparison of expressions. *)
From Coq Require Import List QArith Qcanon Bool Lia.
From Verif Require Import Num Base Signal QcTac Spec Robust Repr Closed SigProof Transducer StlSpec TreeProof ReadProof AtomProof ExprPass TreeRob EvProof Interval StlClaims.
From Verif Require SafeTree.
Import ListNotations.
Local Open Scope Qc_scope.

Section Expr.
Variable E : env Qc.
Variable w : nat.
Hypothesis LIN : e_ip E = LINEAR.
Hypothesis TR : trace w (e_data E).
Hypothesis SPC : e_sem E = SPACE.
Notation T := (last_time (e_data E)).
Notation xdiff := (ExprPass.xdiff E).
Notation sampled := (ExprPass.sampled E).

(** The three numbers and the recorded signal. *)
Lemma cmp_numbers : forall t l op r s e, stands_for t (FAtom l op r) -> expression w l -> expression w r -> 0 <= e -> s <= e -> s <= T ->
  exists t', evaluate E t s e = Ok (xdiff l op r s, xdiff l op r s, xdiff l op r s, t') /\
    sampled (xdiff l op r) s (qmin e T) (samples (tz t')) /\ beginTime (tz t') = s /\
    (endTime (tz t') = qmin e T \/ endTime (tz t') = last (map time (samples (tz t'))) 0).
Proof.
  intros t l op r s e SF Xl Xr H0 H1 H2. set (v := xdiff l op r s).
  assert (SE : s <= qmin e T) by (unfold qmin; destruct (Qclt_le_dec T e); auto).
  destruct (cmp_pass1 E w LIN TR SPC l op r s e Xl Xr H0 H1 H2) as (t1 & A1 & A2 & A3 & A4). fold v in A1.
  destruct (SafeTree.atom_pass1 E w TR SPC s e (prep E l s e) op (prep E r s e) H0) as (v' & l' & r' & z & B1 & B2).
  { apply SafeTree.xini_build; auto. }
  { apply SafeTree.xini_build; auto. }
  change (prep E (FAtom l op r) s e) with (TAtom (SafeTree.start s e) (prep E l s e) op (prep E r s e)) in A1.
  rewrite A1 in B1. injection B1 as <- ->.
  cbn [tz node with_z nz] in A2, A3, A4.
  assert (SZ : s <= endTime z).
  { destruct A4 as [->| ->]; [exact SE|].
    assert (N : map time (samples z) <> []).
    { intro C. pose proof (sa_times _ _ _ _ _ A2 s) as X. rewrite C in X. destruct X as [_ X]. destruct (X (or_introl eq_refl)). }
    apply last_in_q in N. apply (sa_times _ _ _ _ _ A2) in N. destruct N as [->|N]; [qlra|tauto]. }
  assert (BD : forall up n l1 r1, nz n = z -> start_time n = s -> SafeTree.adone E w n l1 r1 -> front_value z = Ok v -> exists n2 l2 r2,
    compute_bound E up (TAtom n l1 op r1) = Ok (v, TAtom n2 l2 op r2) /\ nz n2 = z /\ start_time n2 = s /\ SafeTree.adone E w n2 l2 r2).
  { intros up n l1 r1 NZ NS AD FV. destruct (SafeTree.atom_pass2 E w TR SPC n l1 op r1 AD) as (v2 & l2 & r2 & C1 & C2 & C3).
    cbn [compute_bound]. rewrite C1. cbn [bind]. unfold default_bound. cbn [snd node].
    assert (NT : nltb (endTime (nz n)) (start_time n) = false) by (apply nltb_false; rewrite NZ, NS; exact SZ).
    rewrite NT, NZ, FV. cbn [bind]. exists (if up then with_up n z else with_low n z), l2, r2.
    split; [destruct up; reflexivity|]. split; [destruct up; exact NZ|]. split; [destruct up; exact NS|].
    destruct up; exact C2. }
  assert (FV : front_value z = Ok v).
  { destruct (samples z) as [|p q] eqn:SZ'.
    - pose proof (sa_times _ _ _ _ _ A2 s) as X. destruct X as [_ X]. destruct (X (or_introl eq_refl)).
    - unfold front_value. rewrite SZ'. cbn [deref bind]. f_equal.
      pose proof (sa_inc _ _ _ _ _ A2) as I. apply increasing_incr in I. destruct (incr_bounds E _ _ I) as [B _].
      assert (J : In s (map time (p :: q))) by (apply (sa_times _ _ _ _ _ A2); auto).
      rewrite Forall_forall in B. specialize (B _ J).
      assert (K : In (time p) (map time (p :: q))) by (left; reflexivity).
      apply (sa_times _ _ _ _ _ A2) in K. pose proof (sa_val _ _ _ _ _ A2) as V. inversion V as [|? ? V1 V2]; subst. rewrite V1. unfold v. f_equal.
      destruct K as [K|(_ & K & _)]; [auto|apply Qcle_antisym; auto]. }
  destruct (BD false (with_z (SafeTree.start s e) z) l' r' eq_refl eq_refl B2 FV) as (n2 & l2 & r2 & C1 & C2 & C3 & C4).
  destruct (BD true _ l2 r2 C2 C3 C4 FV) as (n3 & l3 & r3 & D1 & D2 & _).
  pose proof (compute_rob_sim E _ _ (prepare_sim_skel E _ _ s e SF)) as S1. unfold prep in A1.
  change (prepare E (build (FAtom l op r)) s e) with (TAtom (SafeTree.start s e) (prepare E (build l) s e) op (prepare E (build r) s e)) in S1.
  rewrite A1 in S1. unfold evaluate.
  destruct (compute_rob E (prepare E t s e)) as [[x1 u1]| | | |]; cbn [same] in S1; try contradiction. destruct S1 as [-> S1]. cbn [bind].
  pose proof (compute_bound_sim E _ _ S1 false) as S2. rewrite C1 in S2.
  destruct (compute_bound E false u1) as [[x2 u2]| | | |]; cbn [same] in S2; try contradiction. destruct S2 as [-> S2]. cbn [bind].
  pose proof (compute_bound_sim E _ _ S2 true) as S3. rewrite D1 in S3.
  destruct (compute_bound E true u2) as [[x3 u3]| | | |]; cbn [same] in S3; try contradiction. destruct S3 as [-> S3]. cbn [bind].
  exists u3. split; [reflexivity|]. rewrite (sim_tz E _ _ S3). change (tz (TAtom n3 l3 op r3)) with (nz n3). rewrite D2. auto.
Qed.
End Expr.
