(** The sliding maximum over the sample points (plateauMax) of a step signal. *)
From Coq Require Import List QArith Qcanon Bool Lia.
From Verif Require Import Num Base Signal QcTac Spec Robust Repr AndProof NegProof SimplifyProof Lip BoolOps Closed SigProof ResizeProof EvProof PlateauProof.
Import ListNotations.
Local Open Scope Qc_scope.

(** The greatest value of the points [y] with time in [(u,u+a]], and [-M]. *)
Fixpoint wmax (M a : Qc) (y : list pt) (u : Qc) : Qc :=
  match y with
  | nil => - M
  | p :: y' => if andb (nltb u (fst p)) (nleb (fst p) (u + a)) then qmax (snd p) (wmax M a y' u) else wmax M a y' u
  end.

Definition wspec (M a : Qc) (y : list pt) (u w : Qc) : Prop :=
  (w = - M \/ exists t, In (t, w) y /\ u < t /\ t <= u + a) /\ - M <= w /\
  (forall t v, In (t, v) y -> u < t -> t <= u + a -> v <= w).

Lemma wmax_spec : forall M a y u, wspec M a y u (wmax M a y u).
Proof.
  intros M a y u. induction y as [|[t v] y (I1 & I2 & I3)]; cbn [wmax fst snd].
  - split; [auto|]. split; [qlra|]. intros t v [].
  - destruct (andb (nltb u t) (nleb t (u + a))) eqn:B.
    + apply andb_true_iff in B. destruct B as [B1 B2]. qb.
      destruct (qmax_cases v (wmax M a y u)) as [[-> C]|[-> C]].
      * split; [right; exists t; cbn; auto|]. split; [qlra|].
        intros t' v' [J|J] T1 T2; [inversion J; subst; qlra|]. specialize (I3 t' v' J T1 T2). qlra.
      * split; [destruct I1 as [->|(t' & J & T)]; [auto|right; exists t'; cbn; auto]|]. split; [auto|].
        intros t' v' [J|J] T1 T2; [inversion J; subst; qlra|]. eauto.
    + assert (N : ~ (u < t /\ t <= u + a)).
      { intros [N1 N2]. apply andb_false_iff in B. destruct B as [B|B]; qb; qlra. }
      split; [destruct I1 as [->|(t' & J & T)]; [auto|right; exists t'; cbn; auto]|]. split; [auto|].
      intros t' v' [J|J] T1 T2; [inversion J; subst; tauto|]. eauto.
Qed.

Lemma wspec_unique : forall M a y u w, wspec M a y u w -> w = wmax M a y u.
Proof.
  intros M a y u w (A1 & A2 & A3). destruct (wmax_spec M a y u) as (B1 & B2 & B3).
  assert (w <= wmax M a y u).
  { destruct A1 as [->|(t & J & T1 & T2)]; auto. eauto. }
  assert (wmax M a y u <= w).
  { destruct B1 as [B1|(t & J & T1 & T2)]; [rewrite B1; auto|]. eauto. }
  qlra.
Qed.

(** Constant pieces from [t] to [e]; every sample strictly inside [(b,e)] has the
    value of [g] at its time, even when another sample follows at the same time,
    which happens only at [c]. *)
Inductive srep (g : Qc -> Qc) (b c e : Qc) : list smp -> Qc -> Prop :=
| sr_nil : srep g b c e [] e
| sr_cons : forall p z t t', time p = t -> t <= t' -> deriv p = 0 ->
    (forall u, t <= u -> u < t' -> value p = g u) -> (b < t -> t < e -> value p = g t) ->
    (b < t -> t < e -> t < t' \/ t = c) ->
    srep g b c e z t' -> srep g b c e (p :: z) t.

Lemma flags : forall a Mq i t t3 nc3 ec3, plateau_next a Mq i t = (t3, nc3, ec3) -> nc3 || ec3 = true ->
  (match Mq with m :: _ => fst m = t3 -> ec3 = true | _ => True end) /\
  (match i with p :: _ => fst p = t3 + a -> nc3 = true | _ => True end).
Proof.
  intros a Mq i t t3 nc3 ec3 E H. unfold plateau_next, nsub in E. cbn [NumQc] in E.
  destruct Mq as [|m Mq]; destruct i as [|p i].
  - inversion E; subst. discriminate.
  - inversion E; subst. auto.
  - inversion E; subst. auto.
  - destruct (neqb (fst p - a) (fst m)) eqn:B1; [|destruct (nltb (fst p - a) (fst m)) eqn:B2]; qb; inversion E; subst; split; auto; intros K; exfalso; try qlra.
    apply B1. rewrite K. ring.
Qed.

Lemma two_in : forall A (p q : A) l, In p l -> In q l -> p = q \/
  (exists l1 l2, l = l1 ++ p :: l2 /\ In q l2) \/ (exists l1 l2, l = l1 ++ q :: l2 /\ In p l2).
Proof.
  intros A p q l. induction l as [|x l IH]; intros I J; [destruct I|].
  destruct I as [<-|I]; destruct J as [<-|J]; auto.
  - right. left. exists [], l. auto.
  - right. right. exists [], l. auto.
  - destruct (IH I J) as [K|[(l1 & l2 & -> & K)|(l1 & l2 & -> & K)]]; auto.
    + right. left. exists (x :: l1), l2. auto.
    + right. right. exists (x :: l1), l2. auto.
Qed.

Section Loop.
Variables (M a b e : Qc) (y : list pt).
Hypothesis Ha : 0 < a.
Hypothesis Sy : psorted y.
Hypothesis Ey : Forall (fun q => fst q <= e) y.
Hypothesis My : Forall (fun q => - M <= snd q) y.
Hypothesis Ty : forall A p B q, y = A ++ p :: B -> In q B -> fst q = fst p -> fst p = e /\ snd q <= snd p.

Let W := wmax M a y.

Definition count (c : Qc) (l : list Qc) : nat := length (filter (fun t => neqb t c) l).

Lemma count_cons : forall c t l, (count c l <= count c (t :: l))%nat.
Proof. intros c t l. unfold count. cbn [filter]. destruct (neqb t c); cbn [length]; lia. Qed.
Lemma count_both : forall c t l l', (count c l <= count c l')%nat -> (count c (t :: l) <= count c (t :: l'))%nat.
Proof. intros c t l l' H. unfold count in *. cbn [filter]. destruct (neqb t c); cbn [length]; lia. Qed.

Lemma step_loop : forall fuel C Mq i t nc ec z, PInv a e y C Mq i t nc ec ->
  (forall p i', i = p :: i' -> fst p = t + a -> nc = true) ->
  (forall m M', b < t -> Mq = m :: M' -> fst m = t -> ec = true) ->
  (mu Mq i + (if nc || ec then 0 else 1) < fuel)%nat ->
  exists zs, plateau_max_loop M fuel a Mq i t nc ec z = Ok (z ++ zs) /\ zs <> [] /\
    srep W b (e - a) e zs t /\
    (forall c, (count c (map (fun p => fst p - a)%Qc i) <= count c (map (@time Qc) zs))%nat).
Proof.
  induction fuel as [|n IH]; intros C Mq i t nc ec z I Hnc Hec Hf; [lia|].
  destruct I as [I1 I2 I3 I4 I5 I6 I7 I8 I9 I10]. cbn [plateau_max_loop].
  assert (S1 : exists M1, (if ec then match Mq with nil => UB | _ :: q => Ok q end else Ok Mq) = Ok M1 /\
    incl M1 Mq /\ chain M1 /\ dominated t M1 C /\ (length M1 + (if ec then 1 else 0) = length Mq)%nat /\
    (b < t -> t < e -> Forall (fun q => t < fst q) M1)).
  { destruct ec.
    - destruct (I9 eq_refl) as (m & M' & -> & Em). exists M'. split; [auto|]. split; [intros q J; cbn; auto|].
      destruct I5 as [I5a I5]. split; [auto|]. split; [|split; [cbn [length]; lia|]].
      + intros q J T. destruct (I6 q J T) as (m' & [<-|J1] & J2 & J3); [exfalso; qlra|]. exists m'. auto.
      + intros B1 B2. rewrite Forall_forall in I5a |- *. intros q J. destruct (I5a q J) as [K1 K2].
        destruct (Qcle_lt_or_eq _ _ K1) as [K|K]; [qlra|exfalso].
        assert (Jm : In m y) by (rewrite I1; apply in_or_app; left; apply I4; cbn; auto).
        assert (Jq : In q y) by (rewrite I1; apply in_or_app; left; apply I4; cbn; auto).
        destruct (two_in _ m q y Jm Jq) as [->|[(l1 & l2 & El & J')|(l1 & l2 & El & J')]]; [qlra| |].
        * destruct (Ty l1 m l2 q El J' (eq_sym K)). qlra.
        * destruct (Ty l1 q l2 m El J' K). qlra.
    - exists Mq. split; [auto|]. split; [intros q J; auto|]. split; [auto|]. split; [auto|]. split; [lia|].
      intros B1 B2. destruct Mq as [|m M']; [constructor|].
      assert (Tm : t < fst m).
      { pose proof (Forall_inv I7) as K. cbn in K. destruct (Qcle_lt_or_eq _ _ K) as [K'|K']; auto.
        specialize (Hec m M' B1 eq_refl (eq_sym K')). discriminate. }
      destruct I5 as [I5a _]. constructor; auto. eapply Forall_impl; [|exact I5a]. intros q [Hq _]. qlra. }
  destruct S1 as (M1 & E1 & L1 & L2 & L3 & L4 & L5). rewrite E1. cbn [bind]. clear E1.
  assert (S2 : exists M2 i2 C2, (if nc then p <- deref i ;;
                      Ok (pop_back_while (fun q => nleb (snd q) (snd p)) M1 ++ [p], tl i)
                    else Ok (M1, i)) = Ok (M2, i2) /\ y = C2 ++ i2 /\ incl M2 C2 /\ chain M2 /\ dominated t M2 C2 /\
     Forall (fun q => fst q <= t + a) C2 /\ Forall (fun q => t + a <= fst q) i2 /\ Forall (fun q => t <= fst q) M2 /\
     (mu M2 i2 + (if nc then 1 else 0) <= mu M1 i)%nat /\
     (i2 = i \/ exists p, i = p :: i2 /\ fst p - a = t) /\
     (b < t -> t < e -> Forall (fun q => t < fst q) M2) /\
     (forall q, In q i2 -> fst q = t + a -> exists p, In p C2 /\ fst p = t + a /\ snd q <= snd p)).
  { rewrite Forall_forall in I7.
    destruct nc.
    - destruct (I8 eq_refl) as (p & i' & -> & Ep). cbn [deref bind tl].
      exists (push p M1), i', (C ++ [p]). split; [reflexivity|].
      destruct (push_ok t p M1 C) as (P1 & P2 & P3 & P4 & P5); auto.
      { intros q J. apply I4. auto. }
      { eapply Forall_impl; [|exact I2]. intros q Hq. cbn in Hq. qlra. }
      split; [rewrite <- app_assoc; auto|]. split; [auto|]. split; [auto|]. split; [auto|].
      split; [rewrite Forall_app; split; auto; constructor; [qlra|constructor]|].
      inversion I3 as [|? ? I3a I3b]; subst. split; [auto|]. split.
      { rewrite Forall_forall. intros q J. apply P5 in J. destruct J as [<-|J]; [qlra|]. apply I7. auto. }
      split; [unfold mu; cbn [length]; lia|].
      split; [right; exists p; split; [auto|qlra]|]. split.
      { intros B1 B2. rewrite Forall_forall. intros q J. apply P5 in J. destruct J as [<-|J]; [qlra|].
        specialize (L5 B1 B2). rewrite Forall_forall in L5. auto. }
      intros q J T. exists p. split; [apply in_or_app; right; cbn; auto|]. split; [auto|].
      destruct (Ty C p i' q eq_refl J); [congruence|auto].
    - exists M1, i, C. split; [reflexivity|]. split; [auto|]. split; [intros q J; apply I4; auto|].
      split; [auto|]. split; [auto|]. split; [auto|]. split; [auto|]. split.
      { rewrite Forall_forall. intros q J. apply I7. auto. }
      split; [lia|]. split; [auto|]. split; [auto|].
      intros q J T. exfalso. destruct i as [|p i]; [destruct J|].
      assert (Tp : fst p = t + a).
      { pose proof (Forall_inv I3) as K. cbn in K. rewrite I1 in Sy. apply psorted_app in Sy. destruct Sy as (_ & (Sp & _) & _).
        rewrite Forall_forall in Sp. destruct J as [->|J]; auto. specialize (Sp q J). cbn in Sp. qlra. }
      specialize (Hnc p i eq_refl Tp). discriminate. }
  destruct S2 as (M2 & i2 & C2 & E2 & N1 & N2 & N3 & N4 & N5 & N6 & N7 & N8 & N9 & N10 & N11).
  rewrite E2. cbn [bind]. clear E2.
  destruct (plateau_next a M2 i2 t) as [[t3 nc3] ec3] eqn:E3.
  set (w := match M2 with nil => BOTTOM M | m :: _ => snd m end).
  assert (Wd : forall q, In q C2 -> t < fst q -> snd q <= w).
  { intros q J T. destruct (N4 q J T) as (m & J1 & J2 & J3). unfold w.
    destruct M2 as [|m0 M2]; [destruct J1|]. destruct J1 as [<-|J1]; auto.
    destruct N3 as [N3 _]. rewrite Forall_forall in N3. destruct (N3 m J1). qlra. }
  assert (Wm : - M <= w).
  { unfold w. destruct M2 as [|m M2]; [change (BOTTOM M) with (- M); qlra|].
    rewrite Forall_forall in My. apply My. rewrite N1. apply in_or_app. left. apply N2. cbn; auto. }
  assert (Cn : forall c l, (count c (map (fun p => fst p - a)%Qc i2) <= count c l)%nat ->
     (count c (map (fun p => fst p - a)%Qc i) <= count c (t :: l))%nat).
  { intros c l K. destruct N9 as [->|(p & -> & Tp)].
    - pose proof (count_cons c t l). lia.
    - cbn [map]. rewrite Tp. apply count_both. auto. }
  pose proof (flags a M2 i2 t t3 nc3 ec3 E3) as Fl.
  rewrite Forall_forall in N5, N6, N7, Ey.
  apply next_cases in E3. destruct E3 as [(B & -> & -> & ->)|(B & K1 & K2 & K3 & K4 & K5)]; rewrite B.
  - eexists. split; [reflexivity|]. split; [discriminate|].
    assert (G : forall u, t <= u -> w = W u).
    { intros u U. apply wspec_unique. split; [left; reflexivity|]. split; [auto|].
      intros t' v J T1 T2. rewrite N1, app_nil_r in J. apply (Wd (t', v)) in J; auto. cbn. qlra. }
    split.
    + apply sr_cons with (t' := e); [auto|auto|reflexivity| | | |constructor].
      * intros u U1 U2. apply G. auto.
      * intros _ _. apply G. qlra.
      * auto.
    + intros c. cbn [map]. apply Cn. unfold count. cbn. lia.
  - specialize (Fl B). destruct Fl as [Fl1 Fl2].
    assert (T3 : t <= t3).
    { destruct K5 as (p & [[J ->]|[J ->]]); [auto|]. specialize (N6 p J). cbn in N6. qlra. }
    destruct (IH C2 M2 i2 t3 nc3 ec3 (z ++ [mkS t w n0])) as (zs & R1 & R2 & R3 & R5).
    { constructor; auto.
      - rewrite Forall_forall. intros q J. specialize (N5 q J). cbn in N5. qlra.
      - destruct i2 as [|p i2]; [constructor|].
        assert (Ss : psorted (p :: i2)) by (rewrite N1 in Sy; apply psorted_app in Sy; apply Sy).
        destruct Ss as [Ss _]. constructor; auto. eapply Forall_impl; [|exact Ss]. intros q Hq. cbn in Hq. qlra.
      - intros q J T. apply N4; auto. qlra.
      - destruct M2 as [|m M2]; [constructor|]. destruct N3 as [N3 _]. constructor; auto.
        eapply Forall_impl; [|exact N3]. intros q [Hq _]. qlra.
      - destruct K5 as (p & [[J ->]|[J ->]]).
        + apply Ey. rewrite N1. apply in_or_app. auto.
        + assert (fst p <= e) by (apply Ey; rewrite N1; apply in_or_app; auto). qlra. }
    { intros p i' -> T. auto. }
    { intros m M' _ -> T. auto. }
    { rewrite B. unfold mu in *. destruct nc, ec; cbn [orb] in Hf; lia. }
    exists (mkS t w n0 :: zs). fold w. rewrite R1, <- app_assoc. split; [reflexivity|]. split; [discriminate|].
    assert (G : forall u, t <= u -> u < t3 \/ (u = t /\ b < t /\ t < e) -> w = W u).
    { intros u U1 U2. apply wspec_unique. split; [|split; [auto|]].
      - unfold w. destruct M2 as [|m M2]; [left; reflexivity|right]. exists (fst m).
        split; [destruct m; rewrite N1; apply in_or_app; left; apply N2; cbn; auto|]. split.
        + destruct U2 as [U2|(-> & U2 & U3)]; [qlra|]. specialize (N10 U2 U3). apply Forall_inv in N10. auto.
        + assert (fst m <= t + a) by (apply N5; apply N2; cbn; auto). qlra.
      - intros t' v J T1 T2. rewrite N1 in J. apply in_app_or in J. destruct J as [J|J].
        + apply (Wd (t', v)); auto. cbn. qlra.
        + destruct U2 as [U2|(-> & U2 & U3)].
          * exfalso. destruct i2 as [|p i2]; [destruct J|].
            assert (Ss : psorted (p :: i2)) by (rewrite N1 in Sy; apply psorted_app in Sy; apply Sy).
            destruct Ss as [Ss _]. rewrite Forall_forall in Ss.
            assert (fst p <= t') by (destruct J as [->|J]; [cbn; qlra|apply (Ss (t', v) J)]). qlra.
          * pose proof (N6 _ J) as K. cbn in K.
            destruct (N11 _ J) as (p & Jp & Tp & Vp); [cbn; qlra|]. cbn in Vp.
            assert (snd p <= w) by (apply Wd; auto; qlra). qlra. }
    split.
    + apply sr_cons with (t' := t3); [auto|auto|reflexivity| | | |auto].
      * intros u U1 U2. apply G; auto.
      * intros B1 B2. apply G; auto. qlra.
      * intros B1 B2. destruct (Qcle_lt_or_eq _ _ T3) as [L|L]; auto. right. destruct K5 as (p & [[J Tp]|[J Tp]]).
        -- specialize (N10 B1 B2). rewrite Forall_forall in N10. specialize (N10 p J). cbn in N10. exfalso. qlra.
        -- destruct (N11 p J) as (p' & J1 & J2 & J3); [rewrite Tp in L; rewrite L; ring|].
           apply in_split in J1. destruct J1 as (A & A' & ->). rewrite <- app_assoc in N1. cbn [app] in N1.
           destruct (Ty A p' (A' ++ i2) p N1); [apply in_or_app; auto|rewrite J2; rewrite Tp in L; rewrite L; ring|]. rewrite J2 in H. rewrite <- H. ring.
    + intros c. cbn [map]. apply Cn. auto.
  - qlra.
Qed.
End Loop.
