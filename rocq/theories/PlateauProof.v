(** Correctness of the sliding maximum over the sample points (plateauMax). *)
From Coq Require Import List QArith Qcanon Bool Lia.
From Verif Require Import Num Base Signal QcTac Spec Robust Repr AndProof NegProof SimplifyProof Lip BoolOps Closed SigProof ResizeProof EvProof.
Import ListNotations.
Local Open Scope Qc_scope.

Notation pt := (Qc * Qc)%type.

Fixpoint psorted (l : list pt) : Prop :=
  match l with
  | nil => True
  | p :: l' => Forall (fun q => fst p <= fst q) l' /\ psorted l'
  end.

Lemma psorted_app : forall l1 l2, psorted (l1 ++ l2) <->
  psorted l1 /\ psorted l2 /\ (forall p q, In p l1 -> In q l2 -> fst p <= fst q).
Proof.
  induction l1 as [|x l1 IH]; intros l2; cbn [app psorted].
  - split; [intros H; split; [exact I|split; [auto|intros p q []]] | intros (_ & H & _); auto].
  - rewrite IH, Forall_app. split.
    + intros ((F1 & F2) & O1 & O2 & H). split; [auto|]. split; [auto|].
      intros p q [<-|I] J; auto. rewrite Forall_forall in F2. auto.
    + intros ((F1 & O1) & O2 & H). split; [split; [auto|]|auto].
      * rewrite Forall_forall. intros q J. apply H; cbn; auto.
      * split; [auto|]. split; [auto|]. intros p q Ip. apply H. cbn. auto.
Qed.

(** The monotone queue: later points have smaller values. *)
Fixpoint chain (l : list pt) : Prop :=
  match l with
  | nil => True
  | p :: l' => Forall (fun q => fst p <= fst q /\ snd q < snd p) l' /\ chain l'
  end.

Lemma chain_app : forall l1 l2, chain (l1 ++ l2) <->
  chain l1 /\ chain l2 /\ (forall p q, In p l1 -> In q l2 -> fst p <= fst q /\ snd q < snd p).
Proof.
  induction l1 as [|x l1 IH]; intros l2; cbn [app chain].
  - split; [intros H; split; [exact I|split; [auto|intros p q []]] | intros (_ & H & _); auto].
  - rewrite IH, Forall_app. split.
    + intros ((F1 & F2) & O1 & O2 & H). split; [auto|]. split; [auto|].
      intros p q [<-|I] J; auto. rewrite Forall_forall in F2. auto.
    + intros ((F1 & O1) & O2 & H). split; [split; [auto|]|auto].
      * rewrite Forall_forall. intros q J. apply H; cbn; auto.
      * split; [auto|]. split; [auto|]. intros p q Ip. apply H. cbn. auto.
Qed.

Definition push (p : pt) (Mq : list pt) : list pt :=
  pop_back_while (fun q => nleb (snd q) (snd p)) Mq ++ [p].

Definition dominated (t : Qc) (Mq C : list pt) : Prop :=
  forall q, In q C -> t < fst q -> exists m, In m Mq /\ fst q <= fst m /\ snd q <= snd m.

Lemma push_ok : forall t p Mq C, chain Mq -> incl Mq C -> dominated t Mq C ->
  Forall (fun q => fst q <= fst p) C ->
  chain (push p Mq) /\ incl (push p Mq) (C ++ [p]) /\ dominated t (push p Mq) (C ++ [p]) /\
  (length (push p Mq) <= S (length Mq))%nat /\ incl (push p Mq) (p :: Mq).
Proof.
  intros t p Mq C Ch In1 Dom F. unfold push.
  destruct (pop_back_spec _ (fun q : pt => nleb (snd q) (snd p)) Mq) as (l2 & E & F2 & K).
  set (l1 := pop_back_while (fun q => nleb (snd q) (snd p)) Mq) in *. clearbody l1.
  rewrite Forall_forall in F, F2.
  assert (I1 : forall q, In q l1 -> In q Mq) by (intros q J; rewrite E; apply in_or_app; auto).
  assert (Ch' : chain l1 /\ chain l2 /\ forall p0 q, In p0 l1 -> In q l2 -> fst p0 <= fst q /\ snd q < snd p0).
  { apply chain_app. rewrite <- E. auto. }
  destruct Ch' as (Ch1 & _ & _).
  assert (Hi : forall q, In q l1 -> snd p < snd q).
  { intros q J. destruct K as [->|(r & m & -> & B)]; [destruct J|].
    qb. apply in_app_or in J. destruct J as [J|[<-|[]]]; auto.
    apply chain_app in Ch1. destruct Ch1 as (_ & _ & Ch1). destruct (Ch1 q m J (or_introl eq_refl)). qlra. }
  split; [|split; [|split; [|split]]].
  - apply chain_app. split; [auto|]. split; [cbn; auto|].
    intros p0 q J [<-|[]]. auto.
  - intros q J. apply in_app_or in J. apply in_or_app. destruct J as [J|J]; auto.
  - intros q J T. apply in_app_or in J. destruct J as [J|[<-|[]]].
    + destruct (Dom q J T) as (m & M1 & M2 & M3). rewrite E in M1. apply in_app_or in M1. destruct M1 as [M1|M1].
      * exists m. split; [apply in_or_app|]; auto.
      * exists p. split; [apply in_or_app; right; cbn; auto|]. split; [auto|]. specialize (F2 m M1). cbn in F2. qb. qlra.
    + exists p. split; [apply in_or_app; right; cbn; auto|]. split; qlra.
  - rewrite E, !app_length. cbn. lia.
  - intros q J. apply in_app_or in J. destruct J as [J|[<-|[]]]; cbn; auto.
Qed.

Section Plateau.
Variables (M a b e : Qc) (y : list pt).
Hypothesis Ha : 0 <= a.
Hypothesis Sy : psorted y.
Hypothesis Ey : Forall (fun q => fst q <= e) y.

(** The value [w] at time [u]: attained by a point of the closed window, and not
    below any point of the open window. *)
Definition Q1 (u w : Qc) : Prop :=
  (w = - M \/ exists t, In (t, w) y /\ u <= t /\ t <= u + a) /\
  (forall t v, In (t, v) y -> u < t -> t < u + a -> v <= w).

Record PInv (C Mq i : list pt) (t : Qc) (nc ec : bool) : Prop := {
  pi_y : y = C ++ i;
  pi_C : Forall (fun q => fst q <= t + a) C;
  pi_i : Forall (fun q => t + a <= fst q) i;
  pi_in : incl Mq C;
  pi_ch : chain Mq;
  pi_dom : dominated t Mq C;
  pi_M : Forall (fun q => t <= fst q) Mq;
  pi_nc : nc = true -> exists p i', i = p :: i' /\ fst p = t + a;
  pi_ec : ec = true -> exists m M', Mq = m :: M' /\ fst m = t;
  pi_e : t <= e
}.

Definition mu (Mq i : list pt) : nat := (2 * length i + length Mq)%nat.

Lemma next_cases : forall Mq i t t3 nc3 ec3, plateau_next a Mq i t = (t3, nc3, ec3) ->
  (nc3 || ec3 = false /\ Mq = [] /\ i = [] /\ t3 = t) \/
  (nc3 || ec3 = true /\
   (match Mq with m :: _ => t3 <= fst m | _ => True end) /\
   (match i with p :: _ => t3 + a <= fst p | _ => True end) /\
   (nc3 = true -> exists p i', i = p :: i' /\ fst p = t3 + a) /\
   (ec3 = true -> exists m M', Mq = m :: M' /\ fst m = t3) /\
   (exists p, (In p Mq /\ t3 = fst p) \/ (In p i /\ t3 = fst p - a))).
Proof.
  intros Mq i t t3 nc3 ec3 E. unfold plateau_next, nsub in E. cbn [NumQc] in E.
  destruct Mq as [|m Mq]; destruct i as [|p i].
  - inversion E; subst. auto.
  - inversion E; subst. right. cbn [orb]. split; [auto|]. split; [auto|]. split; [qlra|].
    split; [intros _; exists p, i; split; [auto|qlra]|]. split; [discriminate|]. exists p. right. cbn; auto.
  - inversion E; subst. right. cbn [orb]. split; [auto|]. split; [qlra|]. split; [auto|].
    split; [discriminate|]. split; [intros _; eauto|]. exists m. left. cbn; auto.
  - right. destruct (neqb (fst p - a) (fst m)) eqn:B1; [|destruct (nltb (fst p - a) (fst m)) eqn:B2]; qb; inversion E; subst; cbn [orb].
    + split; [auto|]. split; [qlra|]. split; [qlra|]. split; [intros _; exists p, i; split; [auto|qlra]|].
      split; [intros _; eauto|]. exists m. left. cbn; auto.
    + split; [auto|]. split; [qlra|]. split; [qlra|]. split; [intros _; exists p, i; split; [auto|qlra]|].
      split; [discriminate|]. exists p. right. cbn; auto.
    + split; [auto|]. split; [qlra|]. split; [qlra|]. split; [discriminate|].
      split; [intros _; eauto|]. exists m. left. cbn; auto.
Qed.

Lemma loop_ok : forall fuel C Mq i t nc ec z, PInv C Mq i t nc ec ->
  (mu Mq i + (if nc || ec then 0 else 1) < fuel)%nat ->
  exists zs, plateau_max_loop M fuel a Mq i t nc ec z = Ok (z ++ zs) /\ zs <> [] /\
    prepQ true Q1 e zs t /\ Forall (fun q => deriv q = 0) zs /\
    (forall p, In p i -> exists q, In q zs /\ time q = fst p - a).
Proof.
  induction fuel as [|n IH]; intros C Mq i t nc ec z I Hf; [lia|].
  destruct I as [I1 I2 I3 I4 I5 I6 I7 I8 I9 I10]. cbn [plateau_max_loop].
  (* pop the expired candidate *)
  assert (S1 : exists M1, (if ec then match Mq with nil => UB | _ :: q => Ok q end else Ok Mq) = Ok M1 /\
    incl M1 Mq /\ chain M1 /\ dominated t M1 C /\ (length M1 + (if ec then 1 else 0) = length Mq)%nat).
  { destruct ec.
    - destruct (I9 eq_refl) as (m & M' & -> & Em). exists M'. split; [auto|]. split; [intros q J; cbn; auto|].
      destruct I5 as [_ I5]. split; [auto|]. split; [|cbn [length]; lia].
      intros q J T. destruct (I6 q J T) as (m' & [<-|J1] & J2 & J3); [exfalso; qlra|]. exists m'. auto.
    - exists Mq. split; [auto|]. split; [intros q J; auto|]. split; [auto|]. split; [auto|lia]. }
  destruct S1 as (M1 & E1 & L1 & L2 & L3 & L4). rewrite E1. cbn [bind]. clear E1.
  assert (S2 : exists M2 i2 C2, (if nc then p <- deref i ;;
                      Ok (pop_back_while (fun q => nleb (snd q) (snd p)) M1 ++ [p], tl i)
                    else Ok (M1, i)) = Ok (M2, i2) /\ y = C2 ++ i2 /\ incl M2 C2 /\ chain M2 /\ dominated t M2 C2 /\
     Forall (fun q => fst q <= t + a) C2 /\ Forall (fun q => t + a <= fst q) i2 /\ Forall (fun q => t <= fst q) M2 /\
     (mu M2 i2 + (if nc then 1 else 0) <= mu M1 i)%nat /\
     (forall p, In p i -> In p i2 \/ t = fst p - a)).
  { rewrite Forall_forall in I7.
    destruct nc.
    - destruct (I8 eq_refl) as (p & i' & -> & Ep). cbn [deref bind tl].
      exists (push p M1), i', (C ++ [p]). split; [reflexivity|].
      destruct (push_ok t p M1 C) as (P1 & P2 & P3 & P4 & P5); auto.
      { intros q J. apply I4. auto. }
      { eapply Forall_impl; [|exact I2]. intros q Hq. cbn in Hq. qlra. }
      split; [rewrite <- app_assoc; auto|]. split; [auto|]. split; [auto|]. split; [auto|].
      split; [rewrite Forall_app; split; auto; constructor; [qlra|constructor]|].
      inversion I3 as [|? ? I3a I3b]; subst. split; [auto|]. split.
      { rewrite Forall_forall. intros q J. apply P5 in J. destruct J as [<-|J]; [qlra|]. apply I7. auto. }
      split; [unfold mu; cbn [length]; lia|].
      intros p' [<-|J]; auto. right. qlra.
    - exists M1, i, C. split; [reflexivity|]. split; [auto|]. split; [intros q J; apply I4; auto|].
      split; [auto|]. split; [auto|]. split; [auto|]. split; [auto|]. split.
      { rewrite Forall_forall. intros q J. apply I7. auto. }
      split; [lia|]. auto. }
  destruct S2 as (M2 & i2 & C2 & E2 & N1 & N2 & N3 & N4 & N5 & N6 & N7 & N8 & N9).
  rewrite E2. cbn [bind]. clear E2.
  destruct (plateau_next a M2 i2 t) as [[t3 nc3] ec3] eqn:E3.
  set (w := match M2 with nil => BOTTOM M | m :: _ => snd m end).
  assert (Wd : forall q, In q C2 -> t < fst q -> snd q <= w).
  { intros q J T. destruct (N4 q J T) as (m & J1 & J2 & J3). unfold w.
    destruct M2 as [|m0 M2]; [destruct J1|]. destruct J1 as [<-|J1]; auto.
    destruct N3 as [N3 _]. rewrite Forall_forall in N3. destruct (N3 m J1). qlra. }
  assert (Ww : w = - M \/ exists m, In m M2 /\ w = snd m /\ match M2 with m0 :: _ => fst m = fst m0 | _ => False end).
  { unfold w. destruct M2 as [|m M2]; [left; reflexivity|right]. exists m. cbn; auto. }
  rewrite Forall_forall in N5, N6, N7, Ey.
  apply next_cases in E3. destruct E3 as [(B & -> & -> & ->)|(B & K1 & K2 & K3 & K4 & K5)]; rewrite B.
  - eexists. split; [reflexivity|]. split; [discriminate|]. split; [|split].
    + apply prep_cons with (t' := e); auto; [|constructor].
      intros u U1 U2. change n0 with 0. rewrite line0. split; [left; reflexivity|].
      intros t' v J T1 T2. rewrite N1, app_nil_r in J. apply (Wd (t', v)) in J; auto. cbn. qlra.
    + repeat constructor.
    + intros p J. destruct (N9 p J) as [[]|J']. eexists. split; [left; reflexivity|]. cbn. auto.
  - assert (T3 : t <= t3).
    { destruct K5 as (p & [[J ->]|[J ->]]); [auto|]. specialize (N6 p J). cbn in N6. qlra. }
    destruct (IH C2 M2 i2 t3 nc3 ec3 (z ++ [mkS t w n0])) as (zs & R1 & R2 & R3 & R4 & R5).
    { constructor; auto.
      - rewrite Forall_forall. intros q J. specialize (N5 q J). cbn in N5. qlra.
      - destruct i2 as [|p i2]; [constructor|].
        assert (Ss : psorted (p :: i2)) by (rewrite N1 in Sy; apply psorted_app in Sy; apply Sy).
        destruct Ss as [Ss _]. constructor; auto. eapply Forall_impl; [|exact Ss]. intros q Hq. cbn in Hq. qlra.
      - intros q J T. apply N4; auto. qlra.
      - destruct M2 as [|m M2]; [constructor|]. destruct N3 as [N3 _]. constructor; auto.
        eapply Forall_impl; [|exact N3]. intros q [Hq _]. qlra.
      - destruct K5 as (p & [[J ->]|[J ->]]).
        + apply Ey. rewrite N1. apply in_or_app. auto.
        + assert (fst p <= e) by (apply Ey; rewrite N1; apply in_or_app; auto). qlra. }
    { rewrite B. unfold mu in *. destruct nc, ec; cbn [orb] in Hf; lia. }
    exists (mkS t w n0 :: zs). fold w. rewrite R1, <- app_assoc. split; [reflexivity|]. split; [discriminate|]. split; [|split].
    + apply prep_cons with (t' := t3); auto.
      intros u U1 U2. cbn in U2. change n0 with 0. rewrite line0. split.
      * destruct Ww as [Ww|(m & J & -> & Hm)]; auto. right. exists (fst m).
        destruct M2 as [|m0 M2]; [destruct J|]. 
        split; [destruct m; rewrite N1; apply in_or_app; auto|]. split; [qlra|].
        assert (fst m <= t + a) by (apply N5; auto). qlra.
      * intros t' v J T1 T2. rewrite N1 in J. apply in_app_or in J. destruct J as [J|J].
        -- apply (Wd (t', v)); auto. cbn. qlra.
        -- exfalso. destruct i2 as [|p i2]; [destruct J|].
           assert (Ss : psorted (p :: i2)) by (rewrite N1 in Sy; apply psorted_app in Sy; apply Sy).
           destruct Ss as [Ss _]. rewrite Forall_forall in Ss.
           assert (fst p <= t') by (destruct J as [->|J]; [cbn; qlra|apply (Ss (t', v) J)]). qlra.
    + constructor; auto.
    + intros p J. destruct (N9 p J) as [J'|J'].
      * destruct (R5 p J') as (q & Q & T). exists q. cbn; auto.
      * eexists. split; [left; reflexivity|]. cbn. auto.
Qed.

(** Initial reading. *)
Lemma init_ok : forall i C Mq, y = C ++ i -> Forall (fun q => fst q < b + a) C ->
  chain Mq -> incl Mq C -> dominated b Mq C -> (length Mq <= length C)%nat ->
  (exists q, In q i /\ b + a <= fst q) ->
  exists C' Mq' i', plateau_max_init (b + a) Mq i = Ok (Mq', i') /\ y = C' ++ i' /\
    Forall (fun q => fst q < b + a) C' /\ chain Mq' /\ incl Mq' C' /\ dominated b Mq' C' /\
    (length Mq' <= length C')%nat /\
    exists p i'', i' = p :: i'' /\ b + a <= fst p.
Proof.
  induction i as [|p i IH]; intros C Mq E F Ch In1 Dom L (q & J & T); [destruct J|].
  cbn [plateau_max_init]. qtest (nltb (fst p) (b + a)).
  - destruct J as [<-|J]; [exfalso; qlra|].
    destruct (push_ok b p Mq C) as (P1 & P2 & P3 & P4 & P5); auto.
    { rewrite E in Sy. apply psorted_app in Sy. destruct Sy as (_ & _ & Sx). rewrite Forall_forall.
      intros q' J'. apply Sx; cbn; auto. }
    apply (IH (C ++ [p])); auto.
    + rewrite <- app_assoc. auto.
    + rewrite Forall_app. split; auto.
    + rewrite (app_length C). cbn [length]. unfold push in P4. lia.
    + eauto.
  - exists C, Mq, (p :: i). split; [reflexivity|]. split; [auto|]. split; [auto|]. split; [auto|].
    split; [auto|]. split; [auto|]. split; [auto|]. exists p, i. split; auto.
Qed.
End Plateau.

(** The points scanned by plateauMax on a signal of closed pieces. *)
Definition points (xf : Qc -> Qc) (x : signal Qc) : list pt :=
  map (fun q => (time q, xf (time q))) (samples x) ++ [(endTime x, xf (endTime x))].

Lemma pre_ok : forall xf l b t v y0, prep true xf t l b -> l <> [] -> v <= xf t ->
  plateau_max_pre (rev l) t v y0 = map (fun q => (time q, xf (time q))) (tl l) ++ (t, xf t) :: y0.
Proof.
  intros xf l. induction l as [|p l IH] using rev_ind; intros b t v y0 P N V; [congruence|].
  rewrite rev_app_distr. cbn [rev app plateau_max_pre].
  apply prepQ_app in P. destruct P as (t' & P1 & P2).
  inversion P2 as [|? ? ? t2 A1 A2 A3 A4]; subst. assert (t2 = t) by (inversion A4; auto). subst t2.
  assert (Fm : fmax v (valueAt p t) = xf t).
  { rewrite fmax_q. vline. rewrite <- (A3 t); [|auto|cbn; qlra]. rewrite qmax_r; auto. }
  rewrite Fm.
  destruct l as [|q l].
  - reflexivity.
  - rewrite (IH b (time p)); [|auto|discriminate|].
    + cbn [tl app]. rewrite map_app, <- app_assoc. reflexivity.
    + rewrite (A3 (time p)); [|qlra|auto]. rewrite line_at. qlra.
Qed.

Lemma points_sorted : forall xf x, crep xf x -> psorted (points xf x) /\ Forall (fun q => fst q <= endTime x) (points xf x).
Proof.
  intros xf x [N R]. pose proof (prepQ_ordered _ _ _ _ _ R) as O. pose proof (prepQ_le_end _ _ _ _ _ R) as L.
  unfold points. split.
  - apply psorted_app. split; [|split].
    + clear - O. induction (samples x) as [|p l IH]; cbn in *; auto. destruct O as [O1 O2]. split; auto.
      rewrite Forall_map. exact O1.
    + cbn. auto.
    + intros p q J [<-|[]]. apply in_map_iff in J. destruct J as (s & <- & J). cbn. rewrite Forall_forall in L. auto.
  - rewrite Forall_app. split.
    + rewrite Forall_map. exact L.
    + constructor; [cbn; qlra|constructor].
Qed.

Lemma drop_last_split : forall e (l1 l2 : list smp), Forall (fun q => time q < e) l1 -> Forall (fun q => e <= time q) l2 ->
  l1 <> [] -> exists l2', drop_last_at e (l1 ++ l2) = Ok (l1 ++ l2') /\ Forall (fun q => e <= time q) l2'.
Proof.
  intros e l1 l2 F1 F2 N. unfold drop_last_at. destruct l2 as [|q l2 _] using rev_ind.
  - rewrite app_nil_r. destruct (exists_last N) as (r & p & ->). rewrite rev_app_distr. cbn [rev app].
    rewrite Forall_app in F1. destruct F1 as [_ F1]. apply Forall_inv in F1.
    qtest (neqb (time p) e); [exfalso; qlra|]. exists []. rewrite app_nil_r. auto.
  - rewrite app_assoc, rev_app_distr. cbn [rev app]. rewrite rev_involutive. rewrite Forall_app in F2.
    destruct (neqb (time q) e).
    + exists l2. split; auto. apply F2.
    + exists (l2 ++ [q]). rewrite app_assoc. split; auto. apply Forall_app. auto.
Qed.

Lemma plateau_q : forall M xf x a, crep xf x -> 0 < a -> beginTime x + a <= endTime x ->
  - M <= xf (endTime x) ->
  exists z l1 l2, plateauMax M x a = Ok z /\ beginTime z = beginTime x /\ endTime z = endTime x /\
    samples z = l1 ++ l2 /\ l1 <> [] /\ Forall (fun q => time q < endTime x) l1 /\ Forall (fun q => endTime x <= time q) l2 /\
    drepQ true (Q1 M a (points xf x)) (beginTime x) (rev l1) (endTime x) /\
    Forall (fun q => deriv q = 0) l1 /\ ordered l1 /\
    (exists q, In q l1 /\ time q = endTime x - a).
Proof.
  intros M xf x a Rx Ha Hae HM. pose proof Rx as [N R].
  destruct (points_sorted xf x Rx) as [Sy Ey].
  destruct (crepQ_front _ _ Rx) as (f & l & Es & Tf & Vf).
  unfold plateauMax. rewrite Es. cbn [deref bind].
  assert (Ep : (time f, value f) :: plateau_max_pre (rev (f :: l)) (endTime x) (BOTTOM M) [] = points xf x).
  { rewrite Es in R. rewrite (pre_ok xf (f :: l) (beginTime x)); auto. unfold points. rewrite Es. cbn [map tl app]. rewrite Tf, Vf. reflexivity. discriminate. }
  rewrite Ep. change (nadd (beginTime x) a) with (beginTime x + a).
  assert (Ie : In (endTime x, xf (endTime x)) (points xf x)) by (apply in_or_app; right; cbn; auto).
  assert (Ha' : 0 <= a) by qlra.
  destruct (init_ok a (beginTime x) (points xf x) Ha' Sy (points xf x) [] []) as (C & Mq & i & E1 & E2 & E3 & E4 & E5 & E6 & E7 & p & i' & -> & E8); auto.
  { cbn. auto. }
  { intros q []. }
  { intros q []. }
  { exists (endTime x, xf (endTime x)). split; auto. }
  rewrite E1. cbn [bind deref].
  assert (L : (length (points xf x) = length C + S (length i'))%nat) by (rewrite E2, app_length; reflexivity).
  destruct (loop_ok M a (endTime x) (points xf x)) with (fuel := (2 * length (points xf x) + 2)%nat) (C := C) (Mq := Mq) (i := p :: i')
    (t := beginTime x) (nc := neqb (fst p) (beginTime x + a)) (ec := false) (z := @nil smp) as (zs & K1 & K2 & K3 & K4 & K5); auto.
  { constructor; auto.
    - eapply Forall_impl; [|exact E3]. intros q Hq. cbn in Hq. qlra.
    - rewrite E2 in Sy. apply psorted_app in Sy. destruct Sy as (_ & (Sp & _) & _). constructor; auto.
      eapply Forall_impl; [|exact Sp]. intros q Hq. cbn in Hq. qlra.
    - rewrite Forall_forall. intros q J. apply E5 in J.
      assert (J' : In q (points xf x)) by (rewrite E2; apply in_or_app; auto).
      unfold points in J'. apply in_app_or in J'. destruct J' as [J'|[<-|[]]]; [|cbn; qlra].
      apply in_map_iff in J'. destruct J' as (s & <- & J'). cbn.
      pose proof (prepQ_times _ _ _ _ _ R) as T. rewrite Forall_forall in T. auto.
    - intros B. qb. eauto.
    - discriminate.
    - qlra. }
  { unfold mu. cbn [length]. destruct (neqb _ _ || false); lia. }
  rewrite K1. cbn [app bind].
  destruct (split_lt (endTime x) zs) as (l1 & l2 & Z1 & Z2 & Z3); [eapply prepQ_ordered; eauto|].
  assert (N1 : l1 <> []).
  { intros ->. cbn in Z1. subst l2. destruct zs as [|q zs]; [congruence|].
    pose proof (prepQ_front _ _ _ _ _ _ K3). apply Forall_inv in Z3. qlra. }
  destruct (drop_last_split (endTime x) l1 l2) as (l2' & D1 & D2); auto.
  rewrite Z1, D1. cbn [bind]. exists (mkSig (l1 ++ l2') (beginTime x) (endTime x)), l1, l2'. cbn [samples beginTime endTime].
  rewrite Z1 in K3, K4, K5.
  split; [auto|]. split; [auto|]. split; [auto|]. split; [auto|]. split; [auto|]. split; [auto|]. split; [auto|].
  split; [|split; [|split]].
  - eapply prepQ_drepQ; eauto; try qlra.
    eapply Forall_impl; [|exact Z2]. intros q Hq. cbn in Hq. qlra.
  - rewrite Forall_app in K4. apply K4.
  - apply prepQ_ordered in K3. apply ordered_app in K3. apply K3.
  - destruct (K5 (endTime x, xf (endTime x))) as (q & Iq & Tq).
    { rewrite E2 in Ie. apply in_app_or in Ie. destruct Ie as [Ie|Ie]; auto.
      rewrite Forall_forall in E3. specialize (E3 _ Ie). cbn in E3. exfalso. qlra. }
    cbn in Tq. exists q. split; [|exact Tq]. apply in_app_or in Iq. destruct Iq as [Iq|Iq]; auto.
    rewrite Forall_forall in Z3. specialize (Z3 q Iq). cbn in Z3. exfalso. qlra.
Qed.
