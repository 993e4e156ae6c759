(** Evaluations of whole formulas. *)
From Coq Require Import List QArith Qcanon Bool String Lia.
From Verif Require Import Num Base Signal QcTac Spec Robust Repr AndProof NegProof SimplifyProof Lip Closed SigProof ResizeProof EvProof PlateauProof BoundedProof TimedProof Transducer StlSpec TreeProof ReadProof AtomProof ExprPass NodeProof TreeRob BoundProof Interval BoundPass.
Import ListNotations.
Local Open Scope Qc_scope.

Definition usual (w : nat) (E : env Qc) : Prop := e_ip E = LINEAR /\ e_sem E = SPACE /\ trace w (e_data E).
Lemma frag_afrag : forall val w f, frag val w f -> afrag val w f.
Proof.
  assert (L : forall w l, simple_operand w l -> expression w l /\ affine l) by (intros w [] H; cbn in *; try contradiction; auto).
  intros val w f. induction f; cbn [frag afrag]; try tauto.
  intros [S1 S2]. destruct (L _ _ S1), (L _ _ S2). auto.
Qed.

Definition stands_for (t : tree Qc) (f : fml Qc) : Prop := skel t = skel (build f).

Lemma last_time_in : forall w data, trace w data -> In (last_time data) (map row_time data).
Proof.
  intros w data (ND & _). unfold last_time. destruct data as [|d0 dd] using rev_ind; [congruence|].
  rewrite map_app. cbn [map]. rewrite last_last. apply in_or_app. right. left. reflexivity.
Qed.

Lemma numbers_ok : forall (E : env Qc) t s e r lo up, numbers (evaluate E t s e) = Ok (r, lo, up) ->
  exists t1 t2 t3, compute_rob E (prepare E t s e) = Ok (r, t1) /\ compute_bound E false t1 = Ok (lo, t2) /\
    compute_bound E true t2 = Ok (up, t3).
Proof.
  intros E t s e r lo up H. unfold evaluate in H.
  destruct (compute_rob E (prepare E t s e)) as [[r' t1]| | | |]; try discriminate H. cbn [bind] in H.
  destruct (compute_bound E false t1) as [[lo' t2]| | | |] eqn:H2; try discriminate H. cbn [bind] in H.
  destruct (compute_bound E true t2) as [[up' t3]| | | |] eqn:H3; try discriminate H. cbn [bind numbers] in H.
  injection H as -> -> ->. exists t1, t2, t3. auto.
Qed.

Lemma ok_numbers : forall (E : env Qc) t s e r lo up t1 t2 t3, compute_rob E (prepare E t s e) = Ok (r, t1) ->
  compute_bound E false t1 = Ok (lo, t2) -> compute_bound E true t2 = Ok (up, t3) ->
  numbers (evaluate E t s e) = Ok (r, lo, up).
Proof. intros E t s e r lo up t1 t2 t3 H1 H2 H3. unfold evaluate. rewrite H1. cbn [bind]. rewrite H2. cbn [bind]. rewrite H3. reflexivity. Qed.

(** C20 *)
Lemma atom_numbers : forall w E t l op r s e, usual w E -> simple_operand w l -> simple_operand w r ->
  stands_for t (FAtom l op r) -> 0 <= s -> s <= e -> s <= last_time (e_data E) ->
  exists v, numbers (evaluate E t s e) = Ok (v, v, v) /\ rob (eff E) (bound_value E) (e_data E) (FAtom l op r) s v.
Proof.
  intros w E t l op r s e (LIN & SPC & TR) Sl Sr SF H0 H1 HT.
  rewrite (evaluate_skel E t (build (FAtom l op r)) s e SF).
  assert (Xl : expression w l) by (destruct l; cbn in *; try contradiction; auto).
  assert (Xr : expression w r) by (destruct r; cbn in *; try contradiction; auto).
  destruct (atom_pass1 E w LIN TR SPC l op r s e) as (v & n' & tl' & tr' & A1 & A2 & [A3 A4 A5 A6] & A7); auto; try qlra;
    try (destruct l; cbn in *; try contradiction; exact I); try (destruct r; cbn in *; try contradiction; exact I).
  { left. split; [destruct l; cbn in *; try contradiction; exact I|destruct r; cbn in *; try contradiction; exact I]. }
  exists v. split; [|apply (atom_rob E w TR); auto].
  assert (BD : forall up n tl tr, nz n = nz n' -> atom_state E w s e n tl tr -> exists n2 tl2 tr2,
    compute_bound E up (TAtom n tl op tr) = Ok (v, TAtom n2 tl2 op tr2) /\ nz n2 = nz n' /\ atom_state E w s e n2 tl2 tr2).
  { intros up n tl tr NZ AS.
    destruct (atom_pass2 E w TR SPC op s e n tl tr AS) as (p & q & tl2 & tr2 & S1 & C1 & AS2).
    cbn [compute_bound]. rewrite C1. cbn [bind]. unfold default_bound. cbn [snd node].
    assert (NT : nltb (endTime (nz n)) (start_time n) = false).
    { apply nltb_false. rewrite NZ, A4. destruct AS as [-> _ _ _]. qm; qlra. }
    rewrite NT, NZ. rewrite (front_crep _ _ A5). cbn [bind]. rewrite A3, <- A7.
    exists (if up then with_up n (nz n') else with_low n (nz n')), tl2, tr2. split; [destruct up; reflexivity|]. split; [destruct up; exact NZ|].
    destruct AS2 as [B1 B2 B3 B4]. destruct up; split; cbn [with_up with_low nz start_time end_time]; auto; rewrite <- NZ; auto. }
  destruct (BD false n' tl' tr' eq_refl A2) as (n2 & tl2 & tr2 & C1 & C2 & C3).
  destruct (BD true n2 tl2 tr2 C2 C3) as (n3 & tl3 & tr3 & D1 & _).
  eapply ok_numbers; eauto.
Qed.

Section Whole.
Variable w : nat.
Variable E : env Qc.
Hypothesis U : usual w E.
Notation T := (last_time (e_data E)).
Notation val := (bound_value E).
Notation cst := (eff E).
Notation D := (e_data E).
Notation M := (e_M E).

(** C21 *)
Lemma exact_rob : forall t f s e, stands_for t f -> afrag val w f -> 0 <= s -> s <= e -> covers val T f e ->
  within cst D M f -> regular cst val D f s e ->
  exists v t', compute_rob E (prepare E t s e) = Ok (v, t') /\ rob cst val D f s v.
Proof.
  intros t f s e SF F H0 H1 C W RS. destruct U as (LIN & SPC & TR).
  destruct (rob_pass E w LIN SPC TR f s e F H0 H1 C W RS) as (v & t' & g & A1 & (A2 & A3 & A4 & A5 & A6) & A7).
  pose proof (compute_rob_sim E _ _ (prepare_sim_skel E _ _ s e SF)) as SM. unfold prep in A1. rewrite A1 in SM.
  destruct (compute_rob E (prepare E t s e)) as [[v' t2]| | | |]; cbn [same] in SM; try contradiction.
  destruct SM as [<- _]. exists v', t2. split; [reflexivity|]. rewrite A7. apply A5; auto. apply Qcle_refl.
Qed.

(** The two bounds are those of the interval semantics. *)
Lemma bounds_ib : forall f s e r t1, afrag val w f -> 0 <= s -> s <= e -> started val T f s -> within cst D M f -> 0 <= M ->
  regular cst val D f s e -> uncut val T f s e -> (forall up, clear val T up f s e) ->
  compute_rob E (prep E f s e) = Ok (r, t1) ->
  exists lo up t2 t3, compute_bound E false t1 = Ok (lo, t2) /\ compute_bound E true t2 = Ok (up, t3) /\
    ib cst val D M false f s e s lo /\ ib cst val D M true f s e s up.
Proof.
  intros f s e r t1 F H0 H1 ST W HM RS UC CL C. destruct U as (LIN & SPC & TR).
  pose proof (ready_pass E w LIN SPC TR f s e r t1 F H0 H1 ST W RS UC C) as RD.
  pose proof (fun up => kend_bounds val w T f up s e F H1 ST) as KB.
  destruct (bound_pass E w LIN SPC TR HM f s e (fun x => x = s) t1 false F H0 H1 ST W RS (CL false) eq_refl) as (lo & t2 & g & A1 & A2 & A3 & A4); auto.
  { intros x ->. apply Qcle_refl. }
  destruct (bound_pass E w LIN SPC TR HM f s e (fun x => x = s) t2 true F H0 H1 ST W RS (CL true) eq_refl) as (up & t3 & h & B1 & B2 & B3 & B4); auto.
  { intros x ->. apply Qcle_refl. }
  exists lo, up, t2, t3. split; [exact A1|]. split; [exact B1|].
  split; [rewrite A4; apply (bs_val _ _ _ _ _ _ _ _ A3)|rewrite B4; apply (bs_val _ _ _ _ _ _ _ _ B3)]; try apply Qcle_refl; apply KB.
Qed.

(** C22 *)
Lemma collapse : forall t f s e, stands_for t f -> afrag val w f -> 0 <= s -> s <= e -> covers val T f e ->
  within cst D M f -> 0 <= M -> regular cst val D f s e -> uncut val T f s e ->
  exists v, numbers (evaluate E t s e) = Ok (v, v, v) /\ rob cst val D f s v.
Proof.
  intros t f s e SF F H0 H1 C W HM RS UC. rewrite (evaluate_skel E t (build f) s e SF).
  destruct (exact_rob (build f) f s e eq_refl F H0 H1 C W RS) as (v & t1 & A1 & A2).
  destruct (bounds_ib f s e v t1 F H0 H1 (covers_started _ _ _ _ _ _ F H1 C) W HM RS UC) as (lo & up & t2 & t3 & B1 & B2 & B3 & B4); auto.
  { intros up. apply (clear_full val w); auto. }
  pose proof U as (_ & _ & TR). destruct TR as (_ & RI & _).
  apply (ib_full cst val w) in B3; auto; try apply Qcle_refl. apply (ib_full cst val w) in B4; auto; try apply Qcle_refl.
  rewrite (rob_unique cst val D RI f s _ _ B3 A2) in B1. rewrite (rob_unique cst val D RI f s _ _ B4 A2) in B2.
  exists v. split; auto. eapply ok_numbers; eauto.
Qed.
End Whole.

(** ** More data *)
(** [E'] is [E] with later samples added. *)
Definition extends (E E' : env Qc) : Prop :=
  e_ip E' = e_ip E /\ e_sem E' = e_sem E /\ e_M E' = e_M E /\ e_params E' = e_params E /\
  exists more, e_data E' = e_data E ++ more.

Lemma trace_prefix : forall w d more, d <> [] -> trace w (d ++ more) -> trace w d.
Proof.
  intros w d more ND (_ & R & W). split; auto. split.
  - unfold column in *. rewrite map_app in R. revert R. generalize (map (fun r => (row_time r, nth 0 r 0)) more).
    clear. intros m. induction (map (fun r => (row_time r, nth 0 r 0)) d) as [|p l IH]; cbn [app rising]; auto.
    intros [F R]. split; auto. apply Forall_app in F. tauto.
  - apply Forall_app in W. tauto.
Qed.

Lemma last_time_mono : forall w d more, d <> [] -> trace w (d ++ more) -> last_time d <= last_time (d ++ more).
Proof.
  intros w d more ND TR. destruct more as [|m more] using rev_ind; [rewrite app_nil_r; apply Qcle_refl|].
  destruct d as [|d0 d'] using rev_ind; [congruence|]. clear IHmore IHd'.
  unfold last_time. rewrite !map_app. cbn [map]. rewrite !app_assoc, !last_last.
  destruct TR as (_ & R & _). unfold column in R. rewrite <- app_assoc in R. rewrite map_app in R. cbn [map app] in R.
  assert (X : forall l : list (Qc * Qc), forall r, rising (l ++ r) -> rising r).
  { induction l; cbn [app rising]; auto. intros r [_ H]. auto. }
  apply X in R. cbn [rising] in R. destruct R as [F _]. rewrite map_app in F. apply Forall_app in F. destruct F as [_ F].
  inversion F; subst. cbn [fst] in *. apply Qclt_le_weak. auto.
Qed.

Lemma column_app : forall d more c, column (d ++ more) c = column d c ++ column more c.
Proof. intros. unfold column. apply map_app. Qed.

Lemma operand_prefix : forall cst w d more f u v v', d <> [] -> trace w (d ++ more) -> u <= last_time d ->
  operand cst d f u v -> operand cst (d ++ more) f u v' -> v = v'.
Proof.
  intros cst w d more f u v v' ND TR HU O1 O2. destruct f; cbn [operand] in *; try contradiction; [|congruence].
  assert (R1 := trace_prefix w d more ND TR).
  assert (RR : forall dd, trace w dd -> rising (column dd col)).
  { intros dd (_ & R & _). eapply rising_times; [|exact R]. rewrite !times_column. reflexivity. }
  apply linear_interp in O1; [|auto]. apply linear_interp in O2; [|auto].
  rewrite column_app in O2. rewrite interp_prefix in O2; [congruence| |].
  - unfold column. destruct d; [congruence|discriminate].
  - rewrite times_column. exact HU.
Qed.

Lemma interp_after : forall l u, l <> [] -> rising l -> last (map fst l) 0 <= u -> interp l u = interp l (last (map fst l) 0).
Proof.
  intros l u N R H. destruct l as [|[tn vn] l1] using rev_ind; [congruence|]. clear IHl1.
  assert (EL : last (map fst (l1 ++ [(tn, vn)])) 0 = tn) by (rewrite map_app; cbn [map fst]; apply last_last).
  rewrite EL in *.
  assert (X : forall y, tn <= y -> interp (l1 ++ [(tn, vn)]) y = vn).
  { intros y Y. symmetry. apply linear_interp; auto. eapply lin_last; eauto. }
  rewrite !X; auto. apply Qcle_refl.
Qed.

Lemma operand_later : forall cst w d more f u v, d <> [] -> trace w (d ++ more) ->
  operand cst d f u v -> operand cst (d ++ more) f (qmin u (last_time d)) v.
Proof.
  intros cst w d more f u v ND TR O. destruct f; cbn [operand] in *; try contradiction; [|exact O].
  assert (R1 := trace_prefix w d more ND TR).
  assert (RR : forall dd, trace w dd -> rising (column dd col)).
  { intros dd (_ & R & _). eapply rising_times; [|exact R]. rewrite !times_column. reflexivity. }
  assert (NC : column d col <> []) by (unfold column; destruct d; [congruence|discriminate]).
  apply linear_interp in O; [|auto].
  assert (V : v = interp (column (d ++ more) col) (qmin u (last_time d))).
  { rewrite column_app, interp_prefix; auto.
    - rewrite O. destruct (qmin_cases u (last_time d)) as [[-> ?]|[-> ?]]; auto.
      unfold last_time in *. rewrite <- (times_column d col) in *. apply interp_after; auto.
    - rewrite times_column. apply qmin_le_r. }
  rewrite V. apply interp_linear; auto. rewrite column_app. destruct (column d col); [congruence|discriminate].
Qed.

Lemma expr_prefix : forall cst w d more f u v v', d <> [] -> trace w (d ++ more) -> u <= last_time d ->
  expr cst d f u v -> expr cst (d ++ more) f u v' -> v = v'.
Proof.
  intros cst w d more f u v v' ND TR HU. revert v v'.
  induction f; intros x x' O1 O2; cbn [expr] in *; try contradiction; try (eapply operand_prefix; eassumption).
  - destruct O1 as (a & A & ->), O2 as (b & B & ->). rewrite (IHf _ _ A B). reflexivity.
  - destruct O1 as (a & b & A & B & ->), O2 as (a' & b' & A' & B' & ->). rewrite (IHf1 _ _ A A'), (IHf2 _ _ B B'). reflexivity.
  - destruct O1 as (a & b & A & B & ->), O2 as (a' & b' & A' & B' & ->). rewrite (IHf1 _ _ A A'), (IHf2 _ _ B B'). reflexivity.
  - destruct O1 as (a & b & A & B & ->), O2 as (a' & b' & A' & B' & ->). rewrite (IHf1 _ _ A A'), (IHf2 _ _ B B'). reflexivity.
Qed.

Lemma expr_later : forall cst w d more f u v, d <> [] -> trace w (d ++ more) ->
  expr cst d f u v -> expr cst (d ++ more) f (qmin u (last_time d)) v.
Proof.
  intros cst w d more f u v ND TR. revert v.
  induction f; intros x O; cbn [expr] in *; try contradiction; try (eapply operand_later; eassumption).
  - destruct O as (a & A & ->). eauto.
  - destruct O as (a & b & A & B & ->). eauto 8.
  - destruct O as (a & b & A & B & ->). eauto 8.
  - destruct O as (a & b & A & B & ->). eauto 8.
Qed.

Lemma within_prefix : forall cst w d more M f, d <> [] -> trace w (d ++ more) ->
  within cst (d ++ more) M f -> within cst d M f.
Proof.
  intros cst w d more M f ND TR. induction f; cbn [within]; auto; try tauto.
  intros W t v R. apply (W (qmin t (last_time d)) v). cbn [rob] in *.
  destruct op; destruct R as (a & b & A & B & ->); exists a, b; (split; [eapply expr_later; eauto|]); (split; [eapply expr_later; eauto|reflexivity]).
Qed.

Lemma extends_val : forall E E', extends E E' -> bound_value E' = bound_value E /\ eff E' = eff E.
Proof.
  intros E E' (_ & _ & _ & HP & _). unfold bound_value, eff, get_param. rewrite HP. split; reflexivity.
Qed.

Section Two.
Variable w : nat.
Variables E E' : env Qc.
Hypothesis U' : usual w E'.
Hypothesis ND : e_data E <> [].
Hypothesis X : extends E E'.
Notation T := (last_time (e_data E)).
Notation T' := (last_time (e_data E')).
Notation val := (bound_value E).
Notation cst := (eff E).
Notation D := (e_data E).
Notation D' := (e_data E').
Notation M := (e_M E).

Lemma extends_usual : usual w E.
Proof.
  destruct X as (X1 & X2 & _ & _ & more & X3). destruct U' as (U1 & U2 & U3). split; [congruence|]. split; [congruence|].
  rewrite X3 in U3. eapply trace_prefix; eauto.
Qed.

Lemma extends_within : forall f, within cst D' M f -> within cst D M f.
Proof.
  intros f W. destruct X as (_ & _ & _ & _ & more & X3). destruct U' as (_ & _ & U3). rewrite X3 in *. eapply within_prefix; eauto.
Qed.

Lemma extends_last : T <= T'.
Proof. destruct X as (_ & _ & _ & _ & more & X3). destruct U' as (_ & _ & U3). rewrite X3 in *. eapply last_time_mono; eauto. Qed.

Lemma extends_ib : forall f up s e v v', afrag val w f -> s <= e -> started val T f s -> within cst D' M f -> 0 <= M ->
  ib cst val D M up f s e s v -> ib cst val D' M up f s e s v' -> sharper up v v'.
Proof.
  intros f up s e v v' F H ST W HM I J.
  apply (ib_mono cst val w D D' M extends_last) with (f := f) (s := s) (e := e) (u := s); auto.
  - intros g u x x' _ HU O1 O2. destruct X as (_ & _ & _ & _ & more & X3). destruct U' as (_ & _ & U3). rewrite X3 in *. eapply expr_prefix; eauto.
  - apply Qcle_refl.
  - apply (kend_bounds val w); auto.
Qed.

Definition grid_ok (d : Qc) (f : fml Qc) (s e : Qc) (E : env Qc) : Prop :=
  neps < d /\ gridded (bound_value E) d f /\ on_grid d s /\ on_grid d e /\ on_grid d (last_time (e_data E)).

(** C23 *)
Lemma future : forall t f d s e r lo up, stands_for t f -> afrag val w f -> 0 <= s -> s <= e -> started val T f s ->
  within cst D' M f -> 0 <= M -> regular cst val D f s e -> uncut val T f s e -> grid_ok d f s e E ->
  covers val T' f e -> numbers (evaluate E t s e) = Ok (r, lo, up) ->
  forall v, rob cst val D' f s v -> lo <= v /\ v <= up.
Proof.
  intros t f d s e r lo up SF F H0 H1 ST W HM RS UC (G1 & G2 & G3 & G4 & G5) C N v R.
  rewrite (evaluate_skel E t (build f) s e SF) in N. apply numbers_ok in N. destruct N as (t1 & t2 & t3 & N1 & N2 & N3).
  destruct (bounds_ib w E extends_usual f s e r t1 F H0 H1 ST (extends_within f W) HM RS UC) as (lo' & up' & t2' & t3' & B1 & B2 & B3 & B4); auto.
  { intros b. eapply clear_grid; eauto. }
  rewrite N2 in B1. injection B1 as <- <-. rewrite N3 in B2. injection B2 as <- <-.
  split.
  - apply (extends_ib f false s e lo v); auto. apply (full_ib cst val w); auto. apply Qcle_refl.
  - apply (extends_ib f true s e up v); auto. apply (full_ib cst val w); auto. apply Qcle_refl.
Qed.

(** C25 *)
Lemma refine : forall t t' f d d' s e r lo up r' lo' up', stands_for t f -> stands_for t' f -> afrag val w f -> 0 <= s -> s <= e -> started val T f s ->
  within cst D' M f -> 0 <= M -> regular cst val D f s e -> uncut val T f s e -> grid_ok d f s e E ->
  regular cst val D' f s e -> uncut val T' f s e -> grid_ok d' f s e E' ->
  numbers (evaluate E t s e) = Ok (r, lo, up) -> numbers (evaluate E' t' s e) = Ok (r', lo', up') ->
  lo <= lo' /\ up' <= up.
Proof.
  intros t t' f d d' s e r lo up r' lo' up' SF SF' F H0 H1 ST W HM RS UC (G1 & G2 & G3 & G4 & G5) RS' UC' (G1' & G2' & G3' & G4' & G5') N N'.
  destruct (extends_val E E' X) as [XV XC]. assert (XM : e_M E' = M) by apply X.
  rewrite (evaluate_skel E t (build f) s e SF) in N. apply numbers_ok in N. destruct N as (t1 & t2 & t3 & N1 & N2 & N3).
  rewrite (evaluate_skel E' t' (build f) s e SF') in N'. apply numbers_ok in N'. destruct N' as (t1' & t2' & t3' & N1' & N2' & N3').
  assert (ST' : started val T' f s).
  { pose proof extends_last as L. clear - F ST L. revert s ST. induction f; intros s ST; cbn [afrag started] in *; try contradiction; auto; try tauto; try qlra.
    - destruct F, ST; auto.
    - destruct F, ST; auto.
    - destruct F, ST; auto.
    - destruct F as (? & ? & ?); auto.
    - destruct F as (? & ? & ?); auto. }
  destruct (bounds_ib w E extends_usual f s e r t1 F H0 H1 ST (extends_within f W) HM RS UC) as (lo1 & up1 & t2a & t3a & B1 & B2 & B3 & B4); auto.
  { intros b. apply (clear_grid val w d); auto. }
  rewrite N2 in B1. injection B1 as <- <-. rewrite N3 in B2. injection B2 as <- <-.
  destruct (bounds_ib w E' U' f s e r' t1') as (lo2 & up2 & t2b & t3b & B1' & B2' & B3' & B4'); rewrite ?XV, ?XC, ?XM; auto.
  { intros b. rewrite XV in *. eapply (clear_grid val w d'); eauto. }
  rewrite N2' in B1'. injection B1' as <- <-. rewrite N3' in B2'. injection B2' as <- <-.
  rewrite XV, XC, XM in B3', B4'.
  split.
  - apply (extends_ib f false s e lo lo'); auto.
  - apply (extends_ib f true s e up up'); auto.
Qed.
End Two.

Lemma atom_value : forall cst val data l op r t v, rob cst val data (FAtom l op r) t v <->
  exists a b, expr cst data l t a /\ expr cst data r t b /\
    v = match op with GREATERTHAN => a - b | LESSTHAN => b - a end.
Proof. intros cst val data l op r t v. destruct op; reflexivity. Qed.

(** C33 *)
Lemma bounds_within : forall w E t f d s e r lo up, usual w E -> stands_for t f -> afrag (bound_value E) w f -> 0 <= s -> s <= e ->
  started (bound_value E) (last_time (e_data E)) f s -> within (eff E) (e_data E) (e_M E) f -> 0 <= e_M E ->
  regular (eff E) (bound_value E) (e_data E) f s e -> uncut (bound_value E) (last_time (e_data E)) f s e ->
  grid_ok d f s e E -> numbers (evaluate E t s e) = Ok (r, lo, up) ->
  (- e_M E <= lo /\ lo <= e_M E) /\ (- e_M E <= up /\ up <= e_M E).
Proof.
  intros w E t f d s e r lo up U SF F H0 H1 ST W HM RS UC (G1 & G2 & G3 & G4 & G5) N.
  rewrite (evaluate_skel E t (build f) s e SF) in N. apply numbers_ok in N. destruct N as (t1 & t2 & t3 & N1 & N2 & N3).
  destruct (bounds_ib w E U f s e r t1 F H0 H1 ST W HM RS UC) as (lo' & up' & t2' & t3' & B1 & B2 & B3 & B4); auto.
  { intros b. eapply clear_grid; eauto. }
  rewrite N2 in B1. injection B1 as <- <-. rewrite N3 in B2. injection B2 as <- <-.
  pose proof (fun up => kend_bounds (bound_value E) w (last_time (e_data E)) f up s e F H1 ST) as KB.
  split.
  - apply (ib_within (eff E) (bound_value E) w (e_data E) (e_M E) f false s e s); auto; try apply Qcle_refl; apply KB.
  - apply (ib_within (eff E) (bound_value E) w (e_data E) (e_M E) f true s e s); auto; try apply Qcle_refl; apply KB.
Qed.

Lemma all_within : forall w E t f s e, usual w E -> stands_for t f -> afrag (bound_value E) w f -> 0 <= s -> s <= e ->
  covers (bound_value E) (last_time (e_data E)) f e -> within (eff E) (e_data E) (e_M E) f -> 0 <= e_M E ->
  regular (eff E) (bound_value E) (e_data E) f s e -> uncut (bound_value E) (last_time (e_data E)) f s e ->
  exists r lo up, numbers (evaluate E t s e) = Ok (r, lo, up) /\
    (- e_M E <= r /\ r <= e_M E) /\ (- e_M E <= lo /\ lo <= e_M E) /\ (- e_M E <= up /\ up <= e_M E).
Proof.
  intros w E t f s e U SF F H0 H1 C W HM RS UC.
  destruct (collapse w E U t f s e SF F H0 H1 C W HM RS UC) as (v & N & R).
  exists v, v, v. split; auto. pose proof (rob_within _ _ _ _ _ _ _ _ F W R). auto.
Qed.

(** C24 *)
Lemma between : forall w E t f s e, usual w E -> stands_for t f -> afrag (bound_value E) w f -> 0 <= s -> s <= e ->
  covers (bound_value E) (last_time (e_data E)) f e -> within (eff E) (e_data E) (e_M E) f -> 0 <= e_M E ->
  regular (eff E) (bound_value E) (e_data E) f s e -> uncut (bound_value E) (last_time (e_data E)) f s e ->
  exists r lo up, numbers (evaluate E t s e) = Ok (r, lo, up) /\ lo <= r /\ r <= up.
Proof.
  intros w E t f s e U SF F H0 H1 C W HM RS UC.
  destruct (collapse w E U t f s e SF F H0 H1 C W HM RS UC) as (v & N & R).
  exists v, v, v. split; auto. split; apply Qcle_refl.
Qed.
