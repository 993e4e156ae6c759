(** computeOr on step signals: the result has no two samples at the same time. *)
From Coq Require Import List QArith Qcanon Bool Lia.
From Verif Require Import Num Base Signal QcTac Spec Robust Repr AndProof NegProof SimplifyProof Lip BoolOps Closed SigProof ResizeProof EvProof PlateauProof StepPlateau StepSig.
Import ListNotations.
Local Open Scope Qc_scope.

(** The pieces that the sweep pairs, with the times at which they start. *)
Inductive starts (G : Qc -> Qc -> Prop) (b : Qc) : list smp -> list smp -> Prop :=
| s_end : forall p i q j, time p <= b -> time q <= b -> G b (qmax (value p) (value q)) -> starts G b (p :: i) (q :: j)
| s_j : forall p i q j, time p < time q -> b < time q -> G (time q) (qmax (value p) (value q)) ->
    starts G b (p :: i) j -> starts G b (p :: i) (q :: j)
| s_i : forall p i q j, time q < time p -> b < time p -> G (time p) (qmax (value p) (value q)) ->
    starts G b i (q :: j) -> starts G b (p :: i) (q :: j)
| s_ij : forall p i q j, time q = time p -> b < time p -> G (time p) (qmax (value p) (value q)) ->
    starts G b i j -> starts G b (p :: i) (q :: j).

Section Or.
Variables (G : Qc -> Qc -> Prop) (b : Qc).
Definition good (q : smp) : Prop := G (time q) (value q) /\ deriv q = 0.

Lemma seg_or_good : forall i p il, value i = value p -> deriv i = 0 -> time p <= time i ->
  (b < time p -> time i = time p) -> (time p <= b -> time i = b) ->
  forall j z t c z' t' c' j', seg_or_loop i z t c j = Ok (z', t', c', j') ->
  starts G b (p :: il) j -> flat j -> Forall good z -> (c = true -> G t (value i)) ->
  Forall good z' /\ (c' = true -> G t' (value i)) /\ starts G b (p :: il) j' /\ flat j' /\
  exists sj j'', j' = sj :: j'' /\ time sj <= time i.
Proof.
  intros i p il Vi Di Ti T1 T2. induction j as [|sj j IH]; intros z t c z' t' c' j' E S F Fz Hc; cbn [seg_or_loop] in E; [discriminate|].
  qtest (nltb (time i) (time sj)).
  - assert (Sj : b < time sj /\ G (time sj) (qmax (value p) (value sj)) /\ starts G b (p :: il) j).
    { inversion S as [? ? ? ? A1 A2|? ? ? ? A1 A2 A3 A4|? ? ? ? A1 A2 A3 A4|? ? ? ? A1 A2 A3 A4]; subst; auto; exfalso.
      - rewrite T2 in Eb by auto. qlra.
      - rewrite T1 in Eb by auto. qlra.
      - rewrite T1 in Eb by auto. qlra. }
    destruct Sj as (S1 & S2 & S3). inversion F as [|? ? F1 F2]; subst. rewrite <- Vi in S2.
    unfold seg_or_body in E. vline. rewrite !(line_flat i) in E by auto. rewrite !(line_flat sj) in E by auto.
    destruct (nltb (value sj) (value i)) eqn:B1; qb.
    + assert (B2 : nltb (value i) (value sj) = false) by (apply nltb_false; qlra). rewrite B2 in E. cbn [bind] in E.
      apply IH in E; auto. intros _. rewrite qmax_l in S2 by qlra. auto.
    + destruct (neqb (value i) (value sj)) eqn:B3; qb.
      * assert (B2 : nltb (value i) (value sj) = false) by (apply nltb_false; qlra). rewrite B2 in E. cbn [bind] in E.
        apply IH in E; auto. intros _. rewrite qmax_l in S2 by qlra. auto.
      * cbn [bind] in E. apply IH in E; auto; [|discriminate]. constructor.
        { split; [|auto]. cbn [time value]. rewrite qmax_r in S2 by auto. auto. }
        destruct c; [constructor; [split|]|]; auto.
  - inversion E; subst. split; [auto|]. split; [auto|]. split; [auto|]. split; [auto|]. eauto.
Qed.

Lemma segment_or_good : forall i p il j z t z' j', value i = value p -> deriv i = 0 -> time p <= time i ->
  (b < time p -> time i = time p) -> (time p <= b -> time i = b) ->
  computeSegmentOr z i t j = Ok (z', j') ->
  starts G b (p :: il) j -> flat j -> Forall good z ->
  Forall good z' /\ starts G b (p :: il) j' /\ flat j'.
Proof.
  intros i p il j z t z' j' Vi Di Ti T1 T2 E S F Fz. unfold computeSegmentOr in E.
  destruct (seg_or_loop i z t false j) as [[[[z1 t1] c1] j1]| | | |] eqn:E1; cbn [bind] in E; try discriminate.
  destruct (seg_or_good i p il Vi Di Ti T1 T2 j z t false z1 t1 c1 j1 E1 S F Fz) as (R1 & R2 & R3 & R4 & sj & j2 & -> & R5); [discriminate|].
  cbn [deref bind] in E. unfold seg_or_last in E. vline.
  inversion R4 as [|? ? F1 F2]; subst.
  rewrite !(line_flat i) in E by auto. rewrite !(line_flat sj) in E by auto.
  assert (Gi : G (time i) (qmax (value i) (value sj))).
  { rewrite Vi. inversion R3 as [? ? ? ? A1 A2 A3|? ? ? ? A1 A2 A3 A4|? ? ? ? A1 A2 A3 A4|? ? ? ? A1 A2 A3 A4]; subst.
    - rewrite T2; auto.
    - exfalso. destruct (Qclt_le_dec b (time p)) as [C|C]; [rewrite T1 in R5 by auto; qlra|rewrite T2 in R5 by auto; qlra].
    - rewrite T1; auto.
    - rewrite T1; auto. }
  destruct (nltb (value sj) (value i)) eqn:B1; qb.
  - assert (B2 : nltb (value i) (value sj) = false) by (apply nltb_false; qlra). rewrite B2 in E. cbn [bind] in E.
    inversion E; subst. split; [|auto]. constructor; auto. split; auto. rewrite qmax_l in Gi by qlra. auto.
  - destruct (neqb (value i) (value sj)) eqn:B3; qb.
    + assert (B2 : nltb (value i) (value sj) = false) by (apply nltb_false; qlra). rewrite B2 in E. cbn [bind] in E.
      inversion E; subst. split; [|auto]. constructor; auto. split; auto. rewrite qmax_l in Gi by qlra. auto.
    + assert (B2 : nltb (value sj) (value i) = false) by (apply nltb_false; qlra). try rewrite B2 in E. cbn [bind] in E.
      inversion E; subst. split; [|auto]. constructor.
      { split; [|auto]. cbn [time value]. rewrite qmax_r in Gi by auto. auto. }
      destruct c1; [constructor; [split|]|]; auto.
Qed.

Lemma partial_or_good : forall i j z t z', computePartialOr z i j b t = Ok z' ->
  starts G b i j -> flat i -> flat j -> Forall good z -> Forall good z'.
Proof.
  induction i as [|p i IH]; intros j z t z' E S Fi Fj Fz; cbn [computePartialOr] in E; [discriminate|].
  inversion Fi as [|? ? Fi1 Fi2]; subst.
  qtest (nltb b (time p)).
  - destruct (computeSegmentOr z p t j) as [[z1 j1]| | | |] eqn:E1; cbn [bind] in E; try discriminate.
    destruct (segment_or_good p p i j z t z1 j1) as (R1 & R2 & R3); auto; try (intros; qlra).
    destruct j1 as [|sj j1]; [discriminate|]. cbn [deref bind tl] in E. inversion R3 as [|? ? R4 R5]; subst.
    inversion R2 as [? ? ? ? A1 A2 A3|? ? ? ? A1 A2 A3 A4|? ? ? ? A1 A2 A3 A4|? ? ? ? A1 A2 A3 A4]; subst.
    + exfalso. qlra.
    + exfalso.
      unfold computeSegmentOr in E1. destruct (seg_or_loop p z t false j) as [[[[z2 t2] c2] j2]| | | |] eqn:E2; cbn [bind] in E1; try discriminate.
      destruct (seg_or_good p p i eq_refl Fi1 ltac:(qlra) ltac:(auto) ltac:(intros; qlra) j z t false z2 t2 c2 j2 E2 S Fj Fz) as (_ & _ & _ & _ & sj' & j3 & -> & K); [discriminate|].
      cbn [deref bind] in E1. destruct (seg_or_last p z2 t2 c2 sj'); cbn [bind] in E1; try discriminate. inversion E1; subst. qlra.
    + assert (B : neqb (time sj) (time p) = false) by (apply neqb_false; intro K; rewrite K in A1; qlra). rewrite B in E.
      eapply IH; eauto.
    + assert (B : neqb (time sj) (time p) = true) by (apply neqb_true; auto). rewrite B in E.
      eapply IH; eauto.
  - qtest (neqb (time p) b).
    + destruct (computeSegmentOr z p t j) as [[z1 j1]| | | |] eqn:E1; cbn [bind] in E; try discriminate.
      assert (z1 = z') by congruence. subst z'. destruct (segment_or_good p p i j z t z1 j1) as (R1 & R2 & R3); auto; try (intros; qlra).
    + destruct (computeSegmentOr z _ t j) as [[z1 j1]| | | |] eqn:E1; cbn [bind] in E; try discriminate.
      assert (z1 = z') by congruence. subst z'.
      destruct (segment_or_good (mkS b (valueAt p b) (deriv p)) p i j z t z1 j1) as (R1 & R2 & R3); auto; try (intros; qlra).
      cbn [value]. vline. apply line_flat. auto.
Qed.
End Or.

(** simplify keeps no sample that continues the previous one. *)
Fixpoint differ (l : list smp) : Prop :=
  match l with
  | p :: ((q :: _) as l') => ~ (line p (time q) = value q /\ deriv p = deriv q) /\ differ l'
  | _ => True
  end.

Lemma differ_snoc : forall l p q, differ (l ++ [p]) -> ~ (line p (time q) = value q /\ deriv p = deriv q) -> differ (l ++ [p; q]).
Proof.
  induction l as [|x l IH]; intros p q D N; cbn [app] in *.
  - cbn. auto.
  - destruct l as [|x' l]; cbn [app] in *.
    + destruct D as [D _]. split; [auto|]. cbn. auto.
    + destruct D as [D1 D2]. split; [auto|]. apply IH; auto.
Qed.

Lemma simplify_loop_differ : forall rest n b f0 d l, Forall (fun q => b < time q) rest -> time f0 = b -> differ (f0 :: d) ->
  simplify_loop n b (rest ++ f0 :: d) = Ok l -> differ l /\ exists d', l = f0 :: d' /\ forall q, In q d' -> In q d \/ In q rest.
Proof.
  induction rest as [|f rest IH]; intros n b f0 d l Fr T D E.
  - cbn [app] in E. assert (B : neqb (time f0) b = true) by (apply neqb_true; auto).
    destruct n; cbn [simplify_loop] in E; rewrite B in E; inversion E; subst; eauto.
  - cbn [app] in E. inversion Fr as [|? ? F1 F2]; subst.
    assert (B : neqb (time f) (time f0) = false) by (apply neqb_false; intro K; rewrite K in F1; qlra).
    destruct n as [|n]; cbn [simplify_loop] in E; rewrite B in E; [discriminate|].
    destruct (back_cons _ f0 d) as (d0 & bk & Ed).
    change (f :: rest ++ f0 :: d) with ((f :: rest) ++ f0 :: d) in E.
    rewrite (back_app2 _ (f :: rest) (f0 :: d)) in E by discriminate.
    rewrite Ed in E. rewrite back_app in E. cbn [bind] in E. vline. rewrite <- Ed in E.
    destruct (negb (neqb (line bk (time f)) (value f)) || negb (neqb (deriv bk) (deriv f))) eqn:K.
    + rewrite <- app_assoc in E. cbn [app] in E. apply IH in E; auto.
      * destruct E as (E1 & d' & -> & E2). split; auto. exists d'. split; auto. intros q J. destruct (E2 q J) as [J'|J']; [|cbn; auto].
        apply in_app_or in J'. destruct J' as [J'|[<-|[]]]; cbn; auto.
      * rewrite app_comm_cons, Ed, <- app_assoc. cbn [app]. apply differ_snoc; [rewrite <- Ed; auto|].
        intros [K1 K2]. rewrite orb_true_iff, !negb_true_iff in K. destruct K as [K|K]; qb; auto.
    + apply IH in E; auto. destruct E as (E1 & d' & -> & E2). split; auto. exists d'. split; auto.
      intros q J. destruct (E2 q J); cbn; auto.
Qed.

(** If all samples have the value of [h] at their time, none is at the time of another. *)
Lemma differ_inc : forall h l, ordered l -> flat l -> Forall (fun q => value q = h (time q)) l -> differ l -> increasing l.
Proof.
  intros h. induction l as [|p l IH]; intros O F V D; cbn [increasing]; auto.
  destruct O as [O1 O2]. inversion F as [|? ? F1 F2]; inversion V as [|? ? V1 V2]; subst.
  assert (I : increasing l) by (apply IH; auto; destruct l; cbn in D; try tauto; auto).
  split; auto. destruct l as [|q l]; [constructor|].
  assert (L : time p < time q).
  { pose proof (Forall_inv O1) as K. cbn in K. destruct (Qcle_lt_or_eq _ _ K) as [K'|K']; auto. exfalso.
    destruct D as [D _]. apply D. rewrite line_flat by auto. inversion F2; inversion V2; subst. split; congruence. }
  constructor; auto. destruct I as [I _]. eapply Forall_impl; [|exact I]. intros r Hr. cbn in Hr. qlra.
Qed.

Lemma inc_snoc : forall l p, increasing l -> (forall q, In q l -> time q < time p) -> increasing (l ++ [p]).
Proof.
  intros l p I F. apply inc_app. split; [auto|]. split; [cbn; auto|]. intros q r J [<-|[]]. auto.
Qed.

Lemma simplify_inc : forall h f0 l b e z, time f0 = b -> ordered (f0 :: l) -> Forall (fun q => b < time q) l ->
  Forall (fun q => time q <= e) (f0 :: l) ->
  Forall (good (fun u v => v = h u)) (f0 :: l) -> simplify (mkSig (f0 :: l) b e) = Ok z ->
  increasing (samples z) /\ flat (samples z).
Proof.
  intros h f0 l b e z T O Fl Fe Gd E. unfold simplify in E. cbn [samples beginTime endTime] in E.
  destruct (simplify_loop _ _ _) as [q| | | |] eqn:E1; cbn [bind] in E; try discriminate.
  destruct (simplify_loop_ok l (2 * length (f0 :: l)) b f0 []) as (d' & R1 & R2 & R3 & R4 & R5 & R6); auto.
  { simpl; lia. }
  change (l ++ [f0]) with (l ++ f0 :: []) in E1.
  destruct (simplify_loop_differ l _ b f0 [] q Fl T I E1) as (D & d2 & -> & Sub).
  rewrite R1 in E1. inversion E1; subst d2. cbn [app] in *.
  rewrite Forall_forall in Gd, Fe.
  assert (Gq : forall q, In q (f0 :: d') -> good (fun u v => v = h u) q).
  { intros q [<-|J]; [apply Gd; cbn; auto|]. apply Gd. cbn. right. auto. }
  assert (Fq : flat (f0 :: d')) by (apply Forall_forall; intros q J; apply (Gq q J)).
  assert (Iq : increasing (f0 :: d')).
  { apply (differ_inc h); auto. apply Forall_forall. intros q J. apply (Gq q J). }
  destruct (back_cons _ f0 d') as (d0 & bk & Ed). rewrite Ed, back_app in E. cbn [bind] in E. rewrite <- Ed in E. inversion E; subst z. cbn [samples].
  qtest (nltb (time bk) e); [|auto]. split.
  - change (f0 :: d' ++ ?x) with ((f0 :: d') ++ x). apply inc_snoc; auto. cbn [time]. intros q J. rewrite Ed in J, Iq. apply in_app_or in J.
    destruct J as [J|[<-|[]]]; auto. apply inc_app in Iq. destruct Iq as (_ & _ & Iq). specialize (Iq q bk J (or_introl eq_refl)). qlra.
  - change (f0 :: d' ++ ?x) with ((f0 :: d') ++ x). unfold flat. apply Forall_app. split; [auto|repeat constructor].
Qed.

(** Strictly decreasing from below [t], until the first sample at or before [b]. *)
Fixpoint sdec (b t : Qc) (l : list smp) : Prop :=
  match l with
  | nil => True
  | p :: l' => time p < t /\ (b < time p -> sdec b (time p) l')
  end.

Lemma sdec_hd : forall b t t' p l, sdec b t (p :: l) -> time p < t' -> sdec b t' (p :: l).
Proof. intros b t t' p l [_ H] T. split; auto. Qed.

Lemma starts_merged : forall (G : Qc -> Qc -> Prop) P b i j t, merged false P b i j t -> sdec b t i -> sdec b t j -> flat i -> flat j -> b < t ->
  (forall u v w, b <= u -> u < t -> P u v w -> G u (qmax v w)) -> starts G b i j.
Proof.
  intros G P b i j t D. induction D as [p i q j t H1 H2 H3|p i q j t H1 H2 H3 H4 D IH|p i q j t H1 H2 H3 H4 D IH|p i q j t H1 H2 H3 H4 D IH];
    intros Si Sj Fi Fj Hb HG; inversion Fi as [|? ? Fi1 Fi2]; inversion Fj as [|? ? Fj1 Fj2]; subst.
  - apply s_end; auto. apply HG; [qlra|auto|]. specialize (H3 b ltac:(qlra) Hb). rewrite !line_flat in H3 by auto. auto.
  - destruct Sj as [Sj1 Sj2]. apply s_j; auto.
    + apply HG; [qlra|auto|]. specialize (H4 (time q) ltac:(qlra) Sj1). rewrite !line_flat in H4 by auto. auto.
    + apply IH; auto.
      * eapply sdec_hd; eauto.
      * intros u v w U1 U2. apply HG; auto. qlra.
  - destruct Si as [Si1 Si2]. apply s_i; auto.
    + apply HG; [qlra|auto|]. specialize (H4 (time p) ltac:(qlra) Si1). rewrite !line_flat in H4 by auto. auto.
    + apply IH; auto.
      * eapply sdec_hd; eauto.
      * intros u v w U1 U2. apply HG; auto. qlra.
  - destruct Si as [Si1 Si2]. destruct Sj as [Sj1 Sj2]. apply s_ij; auto.
    + apply HG; [qlra|auto|]. specialize (H4 (time p) ltac:(qlra) Si1). rewrite !line_flat in H4 by auto. auto.
    + apply IH; auto.
      * rewrite <- H1. apply Sj2. rewrite H1. auto.
      * intros u v w U1 U2. apply HG; auto. qlra.
Qed.

Lemma inc_sdec : forall b t l, increasing l -> Forall (fun q => time q < t) l -> sdec b t (rev l).
Proof.
  intros b t l. revert t. induction l as [|p l IH] using rev_ind; intros t I F; [exact Logic.I|].
  rewrite rev_app_distr. cbn [rev app sdec]. apply inc_app in I. destruct I as (I1 & _ & I2).
  rewrite Forall_app in F. destruct F as [_ F]. apply Forall_inv in F. split; auto.
  intros _. apply IH; auto. apply Forall_forall. intros q J. apply I2; cbn; auto.
Qed.

Lemma flat_rev : forall l, flat l -> flat (rev l).
Proof. intros l F. unfold flat in *. apply Forall_rev. auto. Qed.

(** A step signal whose value at the end of its domain is not known. *)
Record hstep (x : signal Qc) (b e : Qc) (f : Qc -> Qc) : Prop := {
  hs_begin : beginTime x = b;
  hs_endt : endTime x = e;
  hs_inc : increasing (samples x);
  hs_flat : flat (samples x);
  hs_front : exists p l, samples x = p :: l /\ time p = b;
  hs_le : Forall (fun q => time q <= e) (samples x);
  hs_eval : forall u, b <= u -> u < e -> eval (samples x) u = Some (f u)
}.

Section OrStep.
Variables (x y : signal Qc) (b e : Qc) (xf yf h : Qc -> Qc) (x1 x2 y1 y2 : list smp).
Hypothesis Bx : beginTime x = b.
Hypothesis By : beginTime y = b.
Hypothesis Ex : endTime x = e.
Hypothesis Ey : endTime y = e.
Hypothesis Lt : b < e.
Hypothesis Sx : samples x = x1 ++ x2.
Hypothesis Sy : samples y = y1 ++ y2.
Hypothesis Fx1 : Forall (fun q => time q < e) x1.
Hypothesis Fx2 : Forall (fun q => e <= time q) x2.
Hypothesis Fy1 : Forall (fun q => time q < e) y1.
Hypothesis Fy2 : Forall (fun q => e <= time q) y2.
Hypothesis Ox : ordered (samples x).
Hypothesis Oy : ordered (samples y).
Hypothesis Px : exists p l, x1 = p :: l /\ time p <= b.
Hypothesis Py : exists p l, y1 = p :: l /\ time p <= b.
Hypothesis Vx : forall u, b <= u -> u < e -> eval x1 u = Some (xf u).
Hypothesis Vy : forall u, b <= u -> u < e -> eval y1 u = Some (yf u).
Hypothesis Zx : flat x1.
Hypothesis Zy : flat y1.
Hypothesis St : starts (fun u v => v = h u) b (rev x1) (rev y1).

Lemma or_step : exists z, computeOr x y = Ok z /\ hstep z b e (fun u => qmax (xf u) (yf u)).
Proof.
  assert (Nx : x1 <> []) by (destruct Px as (p & l & -> & _); discriminate).
  assert (Ny : y1 <> []) by (destruct Py as (p & l & -> & _); discriminate).
  assert (Bq : qmax (beginTime x) (beginTime y) = b) by (rewrite Bx, By; apply qmax_l; qlra).
  assert (Eq : qmin (endTime x) (endTime y) = e) by (rewrite Ex, Ey; apply qmin_l; qlra).
  assert (Ex' : forall u, b <= u -> u < e -> eval (samples x) u = Some (xf u)).
  { intros u U1 U2. rewrite Sx, eval_app.
    assert (N : eval x2 u = None) by (apply eval_none; eapply Forall_lt_le; eauto). rewrite N. auto. }
  assert (Ey' : forall u, b <= u -> u < e -> eval (samples y) u = Some (yf u)).
  { intros u U1 U2. rewrite Sy, eval_app.
    assert (N : eval y2 u = None) by (apply eval_none; eapply Forall_lt_le; eauto). rewrite N. auto. }
  destruct (left_at_exists (samples x) e) as (xe & Lx). { rewrite Sx. destruct x1; [congruence|discriminate]. }
  destruct (left_at_exists (samples y) e) as (ye & Ly). { rewrite Sy. destruct y1; [congruence|discriminate]. }
  destruct (computeOr_ok x y xf yf xe ye) as (z & E & [A1 A2 (p0 & l0 & A3 & A3' & _) A4 A5 A6 A7]); rewrite ?Bq, ?Eq; auto; try qlra.
  { destruct Px as (p & l & K & T). exists p, (l ++ x2). rewrite Sx, K. auto. }
  { destruct Py as (p & l & K & T). exists p, (l ++ y2). rewrite Sy, K. auto. }
  rewrite Bq, Eq in *. exists z. split; auto.
  assert (Inc : increasing (samples z) /\ flat (samples z)).
  { unfold computeOr in E. cbv zeta in E. rewrite fmax_q, fmin_q, Bq, Eq, Sx, Sy in E.
    rewrite !skip_unguarded_split in E by auto. cbn [bind] in E.
    assert (Ox1 : ordered x1) by (rewrite Sx in Ox; apply ordered_app in Ox; apply Ox).
    assert (Oy1 : ordered y1) by (rewrite Sy in Oy; apply ordered_app in Oy; apply Oy).
    assert (Dx : drep false xf b (rev x1) e).
    { apply drep_of_eval; auto. eapply Forall_impl; [|exact Fx1]. intros q Hq. cbn in Hq. qlra. }
    assert (Dy : drep false yf b (rev y1) e).
    { apply drep_of_eval; auto. eapply Forall_impl; [|exact Fy1]. intros q Hq. cbn in Hq. qlra. }
    destruct (computePartialOr [] (rev x1) (rev y1) b e) as [r| | | |] eqn:Er; cbn [bind] in E; try discriminate.
    pose proof (partial_or_good _ b (rev x1) (rev y1) [] e r Er St (flat_rev _ Zx) (flat_rev _ Zy) (Forall_nil _)) as Gd.
    assert (Raw : exists p z', r = p :: z' /\ time p = b /\ ordered r /\ Forall (fun q => b < time q) z' /\ Forall (fun q => time q <= e) r).
    { rewrite computePartialOr_neg in Er. cbn [map] in Er.
      pose proof (merged_neg _ _ _ _ _ _ (merged_of_drep _ _ _ _ _ _ Dx _ Dy)) as Mg.
      destruct (computePartialAnd_merged false (fun _ _ => True) b e _ (negl (rev x1)) (negl (rev y1)) [] e ltac:(qlra) ltac:(qlra) Mg) as (p & z' & C1 & C2 & [C3 C4] & C5); auto.
      - rewrite map_rev. apply hd_lt_split. rewrite Forall_map. auto.
      - rewrite map_rev. apply hd_lt_split. rewrite Forall_map. auto.
      - split; constructor.
      - rewrite C1 in Er. cbn [rmap] in Er. inversion Er; subst r. exists (neg p), (negl z').
        split; [reflexivity|]. split; [exact C2|]. split; [change (ordered (negl (p :: z'))); apply ordered_neg; eapply prepQ_ordered; eauto|].
        split; [rewrite Forall_map; exact C5|]. change (Forall (fun q => time q <= e) (negl (p :: z'))). rewrite Forall_map.
        eapply Forall_impl; [|exact C4]. intros q [Hq|Hq]; cbn in *; qlra. }
    destruct Raw as (p & z' & -> & R1 & R2 & R3 & R4).
    eapply simplify_inc; eauto. }
  destruct Inc. constructor; auto. exists p0, l0. split; auto.
Qed.
End OrStep.
