(** Values of signal expressions under linear interpolation, and the signals of comparisons. *)
From Coq Require Import List QArith Qcanon Bool Lia.
From Verif Require Import Num Base Signal QcTac Spec Robust Repr SimplifyProof Lip Closed SigProof ResizeProof Transducer StlSpec TreeProof TimedProof ReadProof AtomProof EvProof.
From Verif Require SafeTree.
Import ListNotations.
Local Open Scope Qc_scope.

Lemma abs_max : forall a : Qc, nabs a = qmax a (- a).
Proof.
  intros a. change (nabs a) with (Qc_abs a). unfold Qc_abs, qmax.
  assert (X : Qle_bool 0 a = true <-> 0 <= a) by (unfold Qcle; apply Qle_bool_iff).
  destruct (Qle_bool 0 a) eqn:B.
  - destruct X as [X _]. specialize (X eq_refl). destruct (Qclt_le_dec a (- a)); [qlra|reflexivity].
  - assert (~ 0 <= a) by (intro C; apply X in C; discriminate). destruct (Qclt_le_dec a (- a)); [reflexivity|].
    exfalso. apply H. qlra.
Qed.

(** ** Straight pieces *)
Definition straight (F : Qc -> Qc) (t t' : Qc) : Prop :=
  forall u, t <= u -> u <= t' -> F u = F t + (F t' - F t) / (t' - t) * (u - t).

Lemma straight_const : forall (F : Qc -> Qc) c t t', t < t' -> (forall u, t <= u -> u <= t' -> F u = c) -> straight F t t'.
Proof. intros F c t t' L H u H1 H2. rewrite !H by qlra. unfold Qcdiv. ring. Qed.
Lemma straight_plus : forall F G t t', straight F t t' -> straight G t t' -> straight (fun u => F u + G u) t t'.
Proof. intros F G t t' HF HG u H1 H2. cbn beta. rewrite (HF u), (HG u) by auto. unfold Qcdiv. ring. Qed.
Lemma straight_minus : forall F G t t', straight F t t' -> straight G t t' -> straight (fun u => F u - G u) t t'.
Proof. intros F G t t' HF HG u H1 H2. cbn beta. rewrite (HF u), (HG u) by auto. unfold Qcdiv. ring. Qed.
Lemma straight_mult : forall (F G : Qc -> Qc) c t t', t < t' -> (forall u, F u = c) -> straight G t t' -> straight (fun u => F u * G u) t t'.
Proof. intros F G c t t' L HF HG u H1 H2. cbn beta. rewrite !HF, (HG u) by auto. unfold Qcdiv. ring. Qed.
Lemma straight_mult_r : forall (F G : Qc -> Qc) c t t', t < t' -> (forall u, G u = c) -> straight F t t' -> straight (fun u => F u * G u) t t'.
Proof. intros F G c t t' L HG HF u H1 H2. cbn beta. rewrite !HG, (HF u) by auto. unfold Qcdiv. ring. Qed.

Lemma interp_tail : forall t1 v1 t2 v2 l u, t1 < t2 -> t2 <= u -> interp ((t1, v1) :: (t2, v2) :: l) u = interp ((t2, v2) :: l) u.
Proof.
  intros t1 v1 t2 v2 l u L H. rewrite interp_cons. destruct (Qclt_le_dec t1 u); [|qlra]. destruct (Qclt_le_dec t2 u); [reflexivity|].
  assert (u = t2) by (apply Qcle_antisym; auto). subst u. rewrite interp_before by auto. field. intro C. qlra.
Qed.

Lemma interp_straight : forall l t t', rising l -> l <> [] -> t < t' -> (forall a, In a (map fst l) -> a <= t \/ t' <= a) ->
  straight (interp l) t t'.
Proof.
  induction l as [|[t1 v1] l IH]; intros t t' R N L H; [congruence|]. destruct l as [|[t2 v2] l].
  - apply straight_const with (c := v1); auto.
  - assert (D : t1 < t2). { destruct R as [R _]. inversion R; auto. }
    destruct (H t1 (or_introl eq_refl)) as [A|A].
    + destruct (H t2 (or_intror (or_introl eq_refl))) as [B|B].
      * intros u U1 U2. rewrite !interp_tail by (auto; qlra). apply IH; auto; [apply R|discriminate|]. intros a I. apply H. right. exact I.
      * assert (X : forall u, t1 <= u -> u <= t2 -> interp ((t1, v1) :: (t2, v2) :: l) u = v1 + (v2 - v1) / (t2 - t1) * (u - t1)).
        { intros u U1 U2. rewrite interp_cons. destruct (Qclt_le_dec t1 u).
          - destruct (Qclt_le_dec t2 u); [qlra|reflexivity].
          - assert (u = t1) by (apply Qcle_antisym; auto). subst u. ring. }
        intros u U1 U2. rewrite !X by qlra. field. split; intro C; qlra.
    + apply straight_const with (c := v1); auto. intros u U1 U2. apply interp_before. qlra.
Qed.

Section Expr.
Variable E : env Qc.
Variable w : nat.
Hypothesis LIN : e_ip E = LINEAR.
Hypothesis TR : trace w (e_data E).
Let T := last_time (e_data E).

Definition prep (f : fml Qc) (s e : Qc) : tree Qc := prepare E (build f) s e.
Definition fresh (s e : Qc) : nst Qc := mkN empty_signal empty_signal empty_signal s e.

Lemma leaf_prep : forall f s e, simple_operand w f -> leaf_tree E f (prep f s e) (fresh s e) 0.
Proof.
  destruct f; cbn [simple_operand]; intros s e H; try contradiction; cbn [leaf_tree]; [reflexivity|].
  eexists. split; [reflexivity|]. destruct p; reflexivity.
Qed.

Fixpoint xval (f : fml Qc) (u : Qc) : Qc :=
  match f with
  | FSig _ _ | FConst _ _ => interp (leaf_points E f) u
  | FAbs c => qmax (xval c u) (- xval c u)
  | FPlus l r => xval l u + xval r u
  | FMinus l r => xval l u - xval r u
  | FMult l r => xval l u * xval r u
  | _ => 0
  end.

Lemma expr_xval : forall f t v, expression w f -> expr (eff E) (e_data E) f t v <-> v = xval f t.
Proof.
  induction f; cbn [expression expr xval]; intros t v' X; try contradiction.
  - apply (operand_interp E w TR (FSig var col)). exact X.
  - apply (operand_interp E w TR (FConst p v)). exact X.
  - split; [intros (a & A & ->); apply IHf in A; auto; subst; reflexivity|intros ->; eexists; split; [apply IHf; auto|reflexivity]].
  - destruct X. split; [intros (a & b & A & B & ->); apply IHf1 in A; auto; apply IHf2 in B; auto; subst; reflexivity|intros ->; do 2 eexists; split; [apply IHf1; auto|split; [apply IHf2; auto|reflexivity]]].
  - destruct X. split; [intros (a & b & A & B & ->); apply IHf1 in A; auto; apply IHf2 in B; auto; subst; reflexivity|intros ->; do 2 eexists; split; [apply IHf1; auto|split; [apply IHf2; auto|reflexivity]]].
  - destruct X. split; [intros (a & b & A & B & ->); apply IHf1 in A; auto; apply IHf2 in B; auto; subst; reflexivity|intros ->; do 2 eexists; split; [apply IHf1; auto|split; [apply IHf2; auto|reflexivity]]].
Qed.

Lemma fixed_xval : forall f, expression w f -> fixed f -> exists c, forall u, xval f u = c.
Proof.
  induction f; cbn [expression fixed xval]; intros X F; try contradiction.
  - exists (eff E p v). intros u. symmetry. apply (operand_interp E w TR (FConst p v)); auto. reflexivity.
  - destruct (IHf X F) as (c & H). exists (qmax c (- c)). intros u. rewrite H. reflexivity.
  - destruct X as [X1 X2], F as [F1 F2]. destruct (IHf1 X1 F1) as (c & H), (IHf2 X2 F2) as (d & H'). eexists. intros u. rewrite H, H'. reflexivity.
  - destruct X as [X1 X2], F as [F1 F2]. destruct (IHf1 X1 F1) as (c & H), (IHf2 X2 F2) as (d & H'). eexists. intros u. rewrite H, H'. reflexivity.
  - destruct X as [X1 X2], F as [F1 F2]. destruct (IHf1 X1 F1) as (c & H), (IHf2 X2 F2) as (d & H'). eexists. intros u. rewrite H, H'. reflexivity.
Qed.

Lemma affine_straight : forall f t t', expression w f -> affine f -> t < t' ->
  (forall a, In a (map row_time (e_data E)) -> a <= t \/ t' <= a) -> straight (xval f) t t'.
Proof.
  intros f t t' X A L H. revert X A. induction f; cbn [expression affine xval]; intros X A; try contradiction.
  - apply interp_straight; auto; [apply (points_rising E w TR (FSig var col) X)|apply (points_some E w TR (FSig var col) X)|].
    rewrite (times_points E w (FSig var col) X). exact H.
  - apply interp_straight; auto; [apply (points_rising E w TR (FConst p v) X)|apply (points_some E w TR (FConst p v) X)|].
    rewrite (times_points E w (FConst p v) X). exact H.
  - destruct (fixed_xval _ X A) as (c & C). apply straight_const with (c := qmax c (- c)); auto. intros u _ _. rewrite C. reflexivity.
  - destruct X, A. apply straight_plus; auto.
  - destruct X, A. apply straight_minus; auto.
  - destruct X as [X1 X2], A as [[A1 A2]|[A1 A2]].
    + destruct (fixed_xval _ X1 A1) as (c & C). apply straight_mult with (c := c); auto.
    + destruct (fixed_xval _ X2 A2) as (c & C). apply straight_mult_r with (c := c); auto.
Qed.

Lemma incr_increasing : forall l : list (sample Qc), incr (map time l) -> increasing l.
Proof. induction l as [|p l IH]; cbn [map incr increasing]; auto. intros [A B]. split; [apply (proj1 (Forall_map time (fun a => time p < a) l)); exact A|auto]. Qed.

(** ** Signals of expressions *)
Record xsig (f : fml Qc) (s e : Qc) (z : signal Qc) : Prop := {
  xs_begin : beginTime z = s;
  xs_inc : increasing (samples z);
  xs_cont : continuous (samples z);
  xs_val : Forall (fun p => value p = xval f (time p)) (samples z);
  xs_times : forall a, In a (map time (samples z)) <-> a = s \/ (In a (map row_time (e_data E)) /\ s <= a /\ a <= e);
  xs_end : endTime z = e \/ endTime z = last (map time (samples z)) 0
}.

Lemma xsig_times : forall f g s e z z', xsig f s e z -> xsig g s e z' -> map time (samples z) = map time (samples z').
Proof.
  intros f g s e z z' A B. apply incr_unique; [apply increasing_incr, A|apply increasing_incr, B|].
  intros a. rewrite (xs_times _ _ _ _ A), (xs_times _ _ _ _ B). reflexivity.
Qed.

Definition points (f : fml Qc) (l : list Qc) : list (Qc * Qc) := map (fun t => (t, xval f t)) l.
Lemma points_fst : forall f l, map fst (points f l) = l.
Proof. intros. unfold points. rewrite map_map. apply map_id. Qed.
Lemma rising_incr : forall f l, incr l -> rising (points f l).
Proof. induction l; cbn [incr points map rising]; auto. intros [F I]. split; [|auto]. apply Forall_map. exact F. Qed.

Lemma incr_bounds : forall a l, incr (a :: l) -> Forall (fun x => a <= x) (a :: l) /\ Forall (fun x => x <= last (a :: l) 0) (a :: l).
Proof.
  intros a l H. split.
  - constructor; [qlra|]. destruct H as [H _]. eapply Forall_impl; [|exact H]. intros; cbn in *; qlra.
  - pose proof (rising_incr (FConst None 0) (a :: l) H) as R. apply Forall_forall. intros x I.
    pose proof (rising_last _ (x, xval (FConst None 0) x) R) as RL. rewrite points_fst in RL. apply RL.
    unfold points. apply in_map_iff. eauto.
Qed.

Lemma last_in_q : forall (l : list Qc), l <> [] -> In (last l 0) l.
Proof. intros l H. rewrite (app_removelast_last 0 H) at 2. apply in_or_app. right. left. reflexivity. Qed.

(** The signal recorded from points at the times of [z]. *)
Lemma xsig_recorded : forall f g s e z, xsig f s e z ->
  xsig g s e (mkSig (lin_samples (points g (map time (samples z)))) s (last (map time (samples z)) 0)).
Proof.
  intros f g s e z H. pose proof (xs_inc _ _ _ _ H) as I. apply increasing_incr in I.
  assert (TV : map time (lin_samples (points g (map time (samples z)))) = map time (samples z)).
  { transitivity (map fst (map tv (lin_samples (points g (map time (samples z)))))); [rewrite map_map; reflexivity|].
    rewrite tv_lin. apply points_fst. }
  constructor; cbn [samples beginTime endTime].
  - reflexivity.
  - apply (rec_increasing LINEAR). apply rising_incr. exact I.
  - apply lin_cont. apply rising_incr. exact I.
  - apply Forall_forall. intros p J. apply (in_map tv) in J. rewrite tv_lin in J. unfold points in J.
    apply in_map_iff in J. destruct J as (a & EQ & _). injection EQ as E1 E2. congruence.
  - rewrite TV. apply (xs_times _ _ _ _ H).
  - rewrite TV. auto.
Qed.

(** ** The loops *)
Lemma abs_loop_points : forall f l pre s0 w0 b, incr (s0 :: map time l) -> Forall (fun p => value p = xval f (time p)) l ->
  abs_loop LINEAR (mkSig (lin_samples (pre ++ [(s0, w0)])) b s0) l =
  Ok (mkSig (lin_samples (pre ++ (s0, w0) :: points (FAbs f) (map time l))) b (last (s0 :: map time l) 0)).
Proof.
  intros f. induction l as [|p l IH]; intros pre s0 w0 b I F; [reflexivity|].
  inversion F as [|? ? F1 F2]; subst. cbn [map] in I. destruct I as [I1 I2]. inversion I1 as [|? ? I3 I4]; subst.
  cbn [abs_loop]. pose proof (append_step LINEAR pre s0 w0 (time p) (nabs (value p)) b I3) as AS. cbn [rec_samples] in AS. rewrite AS. cbn [bind].
  change [(s0, w0); (time p, nabs (value p))] with ([(s0, w0)] ++ [(time p, nabs (value p))]). rewrite app_assoc.
  rewrite IH by auto. rewrite <- app_assoc. cbn [app map points].
  replace (nabs (value p)) with (xval (FAbs f) (time p)); [reflexivity|]. cbn [xval]. rewrite <- F1. symmetry. apply abs_max.
Qed.
Lemma abs_loop_first : forall f l, l <> [] -> incr (map time l) -> Forall (fun p => value p = xval f (time p)) l ->
  abs_loop LINEAR empty_signal l = Ok (mkSig (lin_samples (points (FAbs f) (map time l))) (hd 0 (map time l)) (last (map time l) 0)).
Proof.
  intros f [|p l] N I F; [congruence|]. inversion F as [|? ? F1 F2]; subst. cbn [abs_loop]. rewrite append_first by reflexivity. cbn [bind rec_samples].
  pose proof (abs_loop_points f l [] (time p) (nabs (value p)) (time p)) as A. cbn [app] in A. rewrite A by auto. cbn [map points hd].
  replace (nabs (value p)) with (xval (FAbs f) (time p)); [reflexivity|]. cbn [xval]. rewrite <- F1. symmetry. apply abs_max.
Qed.

Definition combines (g : Qc -> Qc -> Qc) (f l r : fml Qc) : Prop := forall u, xval f u = g (xval l u) (xval r u).

Lemma bin_loop_points : forall g f fl fr, combines g f fl fr -> forall l r pre s0 w0 b, incr (s0 :: map time l) -> map time l = map time r ->
  Forall (fun p => value p = xval fl (time p)) l -> Forall (fun p => value p = xval fr (time p)) r ->
  bin_loop g LINEAR (mkSig (lin_samples (pre ++ [(s0, w0)])) b s0) l r =
  Ok (mkSig (lin_samples (pre ++ (s0, w0) :: points f (map time l))) b (last (s0 :: map time l) 0)).
Proof.
  intros g f fl fr C. induction l as [|p l IH]; intros [|p' r] pre s0 w0 b I T0 F G; try discriminate; [reflexivity|].
  inversion F as [|? ? F1 F2]; subst. inversion G as [|? ? G1 G2]; subst. cbn [map] in I, T0. injection T0 as T1 T2.
  destruct I as [I1 I2]. inversion I1 as [|? ? I3 I4]; subst.
  cbn [bin_loop deref bind tl]. pose proof (append_step LINEAR pre s0 w0 (time p) (g (value p) (value p')) b I3) as AS. cbn [rec_samples] in AS. rewrite AS. cbn [bind].
  change [(s0, w0); (time p, g (value p) (value p'))] with ([(s0, w0)] ++ [(time p, g (value p) (value p'))]). rewrite app_assoc.
  rewrite IH by auto. rewrite <- app_assoc. cbn [app map points].
  replace (g (value p) (value p')) with (xval f (time p)); [reflexivity|]. rewrite C, F1, G1, T1. reflexivity.
Qed.
Lemma bin_loop_first : forall g f fl fr, combines g f fl fr -> forall l r, l <> [] -> incr (map time l) -> map time l = map time r ->
  Forall (fun p => value p = xval fl (time p)) l -> Forall (fun p => value p = xval fr (time p)) r ->
  bin_loop g LINEAR empty_signal l r = Ok (mkSig (lin_samples (points f (map time l))) (hd 0 (map time l)) (last (map time l) 0)).
Proof.
  intros g f fl fr C [|p l] [|p' r] N I T0 F G; try congruence; [discriminate|].
  inversion F as [|? ? F1 F2]; subst. inversion G as [|? ? G1 G2]; subst. cbn [map] in T0. injection T0 as T1 T2.
  cbn [bin_loop deref bind tl]. rewrite append_first by reflexivity. cbn [bind rec_samples].
  pose proof (bin_loop_points g f fl fr C l r [] (time p) (g (value p) (value p')) (time p)) as A. cbn [app] in A. rewrite A by auto. cbn [map points hd].
  replace (g (value p) (value p')) with (xval f (time p)); [reflexivity|]. rewrite C, F1, G1, T1. reflexivity.
Qed.

Lemma xsig_head : forall f s e z, xsig f s e z -> s <= e -> exists p l, samples z = p :: l /\ time p = s /\ value p = xval f s.
Proof.
  intros f s e z H SE. destruct (samples z) as [|p l] eqn:S.
  - pose proof (xs_times _ _ _ _ H s) as X. rewrite S in X. destruct X as [_ X]. destruct (X (or_introl eq_refl)).
  - assert (Tp : time p = s).
    { pose proof (xs_inc _ _ _ _ H) as I. apply increasing_incr in I. rewrite S in I. destruct (incr_bounds _ _ I) as [B _].
      assert (J : In s (map time (p :: l))) by (rewrite <- S; apply (xs_times _ _ _ _ H); auto).
      rewrite Forall_forall in B. specialize (B _ J).
      assert (K : In (time p) (map time (samples z))) by (rewrite S; left; reflexivity).
      apply (xs_times _ _ _ _ H) in K. destruct K as [K|(_ & K & _)]; [auto|apply Qcle_antisym; auto]. }
    exists p, l. split; [reflexivity|]. split; [exact Tp|]. pose proof (xs_val _ _ _ _ H) as V. rewrite S in V. inversion V; subst. congruence.
Qed.

Lemma leaf_xsig : forall f s e z, simple_operand w f -> leaf_sig (leaf_points E f) s e z -> s <= e -> xsig f s e z.
Proof.
  intros f s e z S [L1 L2 L3 L4 L5 L6] SE.
  assert (V : Forall (fun p => value p = interp (leaf_points E f) (time p)) (samples z)).
  { destruct L3 as [_ L3]. clear -L3. induction L3 as [|p l t t' P1 P2 P3 P4 IH]; constructor; auto.
    rewrite (P3 (time p)); [unfold line; ring|rewrite P1; qlra|rewrite P1; exact P2]. }
  constructor; auto.
  - eapply crep_cont; eauto.
  - eapply Forall_impl; [|exact V]. intros p H. rewrite H. destruct f; cbn [simple_operand] in S; try contradiction; reflexivity.
  - intros a. split.
    + intros I. apply in_map_iff in I. destruct I as (p & <- & I). destruct (L5 p I) as [X|X]; [auto|right].
      rewrite (times_points E w f S) in X. split; [exact X|]. destruct L3 as [_ L3]. split.
      * apply prepQ_times in L3. rewrite Forall_forall in L3. rewrite <- L1. apply L3. exact I.
      * apply prepQ_le_end in L3. rewrite Forall_forall in L3. rewrite <- L2. apply L3. exact I.
    + intros [->|(A & B & C)].
      * destruct (crepQ_front _ _ L3) as (p & l & C1 & C2 & _). rewrite C1. left. congruence.
      * apply L6; auto. rewrite (times_points E w f S). exact A.
Qed.

(** ** First pass *)
Lemma xs_some : forall f s e z, xsig f s e z -> samples z <> [].
Proof.
  intros f s e z H C. pose proof (xs_times _ _ _ _ H s) as X. rewrite C in X. destruct X as [_ X]. destruct (X (or_introl eq_refl)).
Qed.
Lemma xs_hd : forall f s e z, xsig f s e z -> s <= e -> hd 0 (map time (samples z)) = s.
Proof. intros f s e z H SE. destruct (xsig_head _ _ _ _ H SE) as (p & l & -> & X & _). exact X. Qed.
Lemma xs_front : forall f s e z, xsig f s e z -> s <= e -> front_value z = Ok (xval f s).
Proof. intros f s e z H SE. destruct (xsig_head _ _ _ _ H SE) as (p & l & S & _ & V). unfold front_value. rewrite S. cbn [deref bind]. congruence. Qed.

(** What an expression node leaves after its first pass. *)
Lemma expr_pass1 : forall f s e, expression w f -> 0 <= e -> s <= e -> s <= T ->
  exists v t', compute_rob E (prep f s e) = Ok (v, t') /\ xsig f s (qmin e T) (tz t').
Proof.
  intros f s e X H0 H1 H2. assert (SE : s <= qmin e T) by (unfold qmin; destruct (Qclt_le_dec T e); auto).
  assert (LEAF : forall f, simple_operand w f ->
    exists v t', compute_rob E (prep f s e) = Ok (v, t') /\ xsig f s (qmin e T) (tz t')).
  { intros g Sg. destruct (leaf_pass1 E w LIN TR g (prep g s e) (fresh s e) s e) as (v & t' & n' & k' & A1 & A2 & A3 & A4); auto.
    { apply leaf_prep; auto. }
    exists v, t'. split; [exact A1|]. 
    apply leaf_xsig; auto. unfold tz. rewrite (leaf_node _ _ _ _ _ A2). exact A3. }
  assert (BIN : forall g F l r, combines g F l r ->
    (exists v t', compute_rob E (prep l s e) = Ok (v, t') /\ xsig l s (qmin e T) (tz t')) ->
    (exists v t', compute_rob E (prep r s e) = Ok (v, t') /\ xsig r s (qmin e T) (tz t')) ->
    exists vl tl vr tr v z, compute_rob E (prep l s e) = Ok (vl, tl) /\ compute_rob E (prep r s e) = Ok (vr, tr) /\
      bin_loop g LINEAR empty_signal (samples (tz tl)) (samples (tz tr)) = Ok z /\ front_value z = Ok v /\ xsig F s (qmin e T) z).
  { intros g F l r C (vl & tl & A1 & A2) (vr & tr & B1 & B2).
    pose proof (xsig_recorded l F _ _ _ A2) as R.
    exists vl, tl, vr, tr. do 2 eexists. split; [exact A1|]. split; [exact B1|]. split.
    - apply (bin_loop_first g F l r C); [eapply xs_some; eauto|apply increasing_incr, A2|eapply xsig_times; eauto|apply A2|apply B2].
    - rewrite (xs_hd _ _ _ _ A2 SE). split; [apply (xs_front _ _ _ _ R SE)|exact R]. }
  induction f; cbn [expression] in X; try contradiction.
  - apply LEAF. exact X.
  - apply LEAF. exact X.
  - destruct (IHf X) as (v & t' & A1 & A3).
    change (prep (FAbs f) s e) with (TAbs (fresh s e) (prep f s e)). cbn [compute_rob]. rewrite A1. cbn [bind nz fresh]. rewrite LIN.
    rewrite (abs_loop_first f); [|eapply xs_some; eauto|apply increasing_incr, A3|apply A3]. cbn [bind].
    rewrite (xs_hd _ _ _ _ A3 SE). pose proof (xsig_recorded f (FAbs f) _ _ _ A3) as R. rewrite (xs_front _ _ _ _ R SE). cbn [bind].
    do 2 eexists. split; [reflexivity|]. exact R.
  - destruct X as [X1 X2]. destruct (BIN (@nadd Qc NumQc) (FPlus f1 f2) f1 f2 (fun _ => eq_refl) (IHf1 X1) (IHf2 X2)) as (vl & tl & vr & tr & v & z & A1 & B1 & L & FV & R).
    change (prep (FPlus f1 f2) s e) with (TPlus (fresh s e) (prep f1 s e) (prep f2 s e)). cbn [compute_rob]. rewrite A1, LIN. cbn [bind nz fresh]. rewrite B1. cbn [bind]. rewrite L. cbn [bind]. rewrite FV. cbn [bind]. eauto.
  - destruct X as [X1 X2]. destruct (BIN (@nsub Qc NumQc) (FMinus f1 f2) f1 f2 (fun _ => eq_refl) (IHf1 X1) (IHf2 X2)) as (vl & tl & vr & tr & v & z & A1 & B1 & L & FV & R).
    change (prep (FMinus f1 f2) s e) with (TMinus (fresh s e) (prep f1 s e) (prep f2 s e)). cbn [compute_rob]. rewrite A1, LIN. cbn [bind nz fresh]. rewrite B1. cbn [bind]. rewrite L. cbn [bind]. rewrite FV. cbn [bind]. eauto.
  - destruct X as [X1 X2]. destruct (BIN (@nmul Qc NumQc) (FMult f1 f2) f1 f2 (fun _ => eq_refl) (IHf1 X1) (IHf2 X2)) as (vl & tl & vr & tr & v & z & A1 & B1 & L & FV & R).
    change (prep (FMult f1 f2) s e) with (TMult (fresh s e) (prep f1 s e) (prep f2 s e)). cbn [compute_rob]. rewrite A1, LIN. cbn [bind nz fresh]. rewrite B1. cbn [bind]. rewrite L. cbn [bind]. rewrite FV. cbn [bind]. eauto.
Qed.

(** ** The comparison *)
Definition xdiff (l : fml Qc) (op : comparator) (r : fml Qc) (u : Qc) : Qc := atom_op op (xval l u) (xval r u).

(** Samples of [F] at [s] and at the row times of [[s,e]]. *)
Record sampled (F : Qc -> Qc) (s e : Qc) (l : list (sample Qc)) : Prop := {
  sa_inc : increasing l;
  sa_cont : continuous l;
  sa_val : Forall (fun p => value p = F (time p)) l;
  sa_times : forall a, In a (map time l) <-> a = s \/ (In a (map row_time (e_data E)) /\ s <= a /\ a <= e)
}.
Lemma xs_sampled : forall f s e z, xsig f s e z -> sampled (xval f) s e (samples z).
Proof. intros f s e z []. constructor; auto. Qed.

Lemma zipd_times : forall op l r, map time l = map time r -> map time (zipd op l r) = map time l.
Proof. induction l as [|p l IH]; intros [|q r] H; try discriminate; [reflexivity|]. cbn [map zipd diff time] in *. injection H as H1 H2. f_equal. auto. Qed.
Lemma zipd_vals : forall op F G l r, map time l = map time r -> Forall (fun p => value p = F (time p)) l -> Forall (fun p => value p = G (time p)) r ->
  Forall (fun p => value p = atom_op op (F (time p)) (G (time p))) (zipd op l r).
Proof.
  induction l as [|p l IH]; intros [|q r] H A B; try discriminate; [constructor|]. inversion A; subst. inversion B; subst. cbn [map] in H. injection H as H1' H2'.
  cbn [zipd]. constructor; [|auto]. cbn [diff time value]. congruence.
Qed.
Lemma zipd_cont : forall op l r, map time l = map time r -> continuous l -> continuous r -> continuous (zipd op l r).
Proof.
  induction l as [|p l IH]; intros [|q r] H A B; try discriminate; [exact I|].
  destruct l as [|p' l], r as [|q' r]; try discriminate; [exact I|]. cbn [map] in H. injection H as H1 H2 H3.
  destruct A as [A1 A2], B as [B1 B2]. specialize (IH (q' :: r)). cbn [zipd]. split.
  - cbn [diff time]. rewrite line_diff by auto. cbn [diff value]. rewrite A1, H2, B1. reflexivity.
  - apply IH; auto. cbn [map]. congruence.
Qed.

Lemma zipd_sampled : forall op F G s e l r, sampled F s e l -> sampled G s e r -> map time l = map time r ->
  sampled (fun u => atom_op op (F u) (G u)) s e (zipd op l r).
Proof.
  intros op F G s e l r [A1 A2 A3 A4] [B1 B2 B3 B4] TM. constructor.
  - apply incr_increasing. rewrite zipd_times by auto. apply increasing_incr. exact A1.
  - apply zipd_cont; auto.
  - apply zipd_vals; auto.
  - intros a. rewrite zipd_times by auto. apply A4.
Qed.

Hypothesis SPC : e_sem E = SPACE.

Lemma cmp_pass1 : forall l op r s e, expression w l -> expression w r -> 0 <= e -> s <= e -> s <= T ->
  exists t', compute_rob E (prep (FAtom l op r) s e) = Ok (xdiff l op r s, t') /\
    sampled (xdiff l op r) s (qmin e T) (samples (tz t')) /\ beginTime (tz t') = s /\
    (endTime (tz t') = qmin e T \/ endTime (tz t') = last (map time (samples (tz t'))) 0).
Proof.
  intros l op r s e Xl Xr H0 H1 H2. assert (SE : s <= qmin e T) by (unfold qmin; destruct (Qclt_le_dec T e); auto).
  destruct (expr_pass1 l s e Xl H0 H1 H2) as (vl & tl & A1 & A2). destruct (expr_pass1 r s e Xr H0 H1 H2) as (vr & tr & B1 & B2).
  change (prep (FAtom l op r) s e) with (TAtom (fresh s e) (prep l s e) op (prep r s e)).
  cbn [compute_rob]. rewrite A1. cbn [bind]. rewrite B1. cbn [bind nz fresh]. unfold compute_atom. rewrite LIN, SPC.
  pose proof (xsig_times _ _ _ _ _ _ A2 B2) as TM.
  destruct (xsig_head _ _ _ _ A2 SE) as (p & pl & S1 & T1 & V1). destruct (xsig_head _ _ _ _ B2 SE) as (q & ql & S2 & T2 & V2).
  pose proof (zipd_sampled op _ _ _ _ _ _ (xs_sampled _ _ _ _ A2) (xs_sampled _ _ _ _ B2) TM) as Z.
  pose proof (AtomProof.atom_loop_first op pl ql p q) as AL. rewrite <- S1, <- S2 in AL. rewrite AL; [|apply A2|exact TM|apply A2|apply B2]. cbn [bind samples beginTime].
  assert (DZ : deref (zipd op (samples (tz tl)) (samples (tz tr))) = Ok (diff op p q)) by (rewrite S1, S2; reflexivity).
  rewrite T1, DZ. cbn [bind diff value]. rewrite V1, V2.
  eexists. split; [reflexivity|]. cbn [tz node with_z nz samples beginTime endTime]. split; [exact Z|]. split; [reflexivity|].
  rewrite zipd_times by auto. apply (xs_end _ _ _ _ A2).
Qed.

Lemma sampled_from : forall F s e l, sampled F s e l -> s <= e -> last (map time l) 0 = s \/ In (last (map time l) 0) (map row_time (e_data E)).
Proof.
  intros F s e l S SE. assert (N : map time l <> []).
  { intro C. pose proof (sa_times _ _ _ _ S s) as X. rewrite C in X. destruct X as [_ X]. destruct (X (or_introl eq_refl)). }
  apply last_in_q in N. apply (sa_times _ _ _ _ S) in N. tauto.
Qed.

(** ** Affine expressions between the samples *)
Lemma straight_rep : forall F l p, increasing (p :: l) -> continuous (p :: l) -> Forall (fun p => value p = F (time p)) (p :: l) ->
  (forall l1 a b l2, p :: l = l1 ++ a :: b :: l2 -> straight F (time a) (time b)) ->
  prepQ true (fun u v => F u = v) (last (map time (p :: l)) 0) (p :: l) (time p).
Proof.
  intros F. induction l as [|p' l IH]; intros p I C V S.
  - apply prep_cons with (t' := time p); [reflexivity|qlra| |constructor].
    intros u U1 U2. cbn in U2. assert (u = time p) by (apply Qcle_antisym; auto). subst u. inversion V; subst. unfold line. rewrite <- H1. ring.
  - destruct I as [I1 I2]. destruct C as [C1 C2]. inversion V as [|? ? V1 V2]; subst. inversion I1 as [|? ? I3 I4]; subst.
    apply prep_cons with (t' := time p'); [reflexivity|qlra| |].
    + intros u U1 U2. rewrite (S [] p p' l eq_refl u U1 U2). inversion V2 as [|? ? V3 V4]; subst. rewrite <- V1, <- V3, <- C1.
      unfold line. field. intro Z. qlra.
    + apply IH; auto. intros l1 a b l2 EQ. apply (S (p :: l1) a b l2). rewrite EQ. reflexivity.
Qed.

Lemma incr_split : forall (l1 l2 : list Qc) a b x, incr (l1 ++ a :: b :: l2) -> In x (l1 ++ a :: b :: l2) -> x <= a \/ b <= x.
Proof.
  induction l1 as [|y l1 IH]; cbn [app]; intros l2 a b x I J.
  - destruct J as [->|[->|J]]; [left; qlra|right; qlra|right]. destruct I as (_ & I & _). rewrite Forall_forall in I. specialize (I x J). qlra.
  - destruct I as [I1 I2]. destruct J as [->|J]; [|eauto]. left. rewrite Forall_forall in I1.
    assert (x < a) by (apply I1; apply in_or_app; right; left; reflexivity). qlra.
Qed.

Lemma sampled_denotes : forall F s e l, sampled F s e l -> s <= e ->
  (forall a b, s <= a -> a < b -> b <= e -> (forall x, In x (map row_time (e_data E)) -> x <= a \/ b <= x) -> straight F a b) ->
  forall u, s <= u -> u <= last (map time l) 0 -> denotes l u (F u).
Proof.
  intros F s e l S SE ST u U1 U2. destruct l as [|p l].
  - pose proof (sa_times _ _ _ _ S s) as X. destruct X as [_ X]. destruct (X (or_introl eq_refl)).
  - pose proof (sa_inc _ _ _ _ S) as I. apply increasing_incr in I. destruct (incr_bounds _ _ I) as [B _].
    assert (TP : time p = s).
    { assert (J : In s (map time (p :: l))) by (apply (sa_times _ _ _ _ S); auto). rewrite Forall_forall in B. specialize (B _ J).
      assert (K : In (time p) (map time (p :: l))) by (left; reflexivity). apply (sa_times _ _ _ _ S) in K.
      destruct K as [K|(_ & K & _)]; [auto|apply Qcle_antisym; auto]. }
    assert (R : crepQ (fun u v => F u = v) (mkSig (p :: l) s (last (map time (p :: l)) 0))).
    { split; [discriminate|]. cbn [samples beginTime endTime]. rewrite <- TP. apply straight_rep; [apply S|apply S|apply S|].
      intros l1 a b l2 EQ. assert (EQ' : map time (p :: l) = map time l1 ++ time a :: time b :: map time l2) by (rewrite EQ, map_app; reflexivity).
      assert (Ia : In (time a) (map time (p :: l))) by (rewrite EQ'; apply in_or_app; right; left; reflexivity).
      assert (Ib : In (time b) (map time (p :: l))) by (rewrite EQ'; apply in_or_app; right; right; left; reflexivity).
      assert (LB : forall x, In x (map time (p :: l)) -> s <= x /\ x <= e).
      { intros x J. apply (sa_times _ _ _ _ S) in J. destruct J as [->|J]; [split; [qlra|exact SE]|tauto]. }
      apply ST; [apply LB; exact Ia| |apply LB; exact Ib|].
      - rewrite EQ' in I. clear -I. induction l1; cbn [map app] in I; [|apply IHl1; apply I]. destruct I as [I _]. inversion I; auto.
      - intros x J. destruct (Qclt_le_dec x s) as [L|L]; [left; destruct (LB _ Ia); qlra|]. destruct (Qclt_le_dec e x) as [L'|L']; [right; destruct (LB _ Ib); qlra|].
        assert (K : In x (map time (p :: l))) by (apply (sa_times _ _ _ _ S); auto). rewrite EQ' in K, I. eapply incr_split; eauto. }
    destruct (crepQ_eval _ _ R u U1 U2) as (v & EV & <-). apply eval_denotes. exact EV.
Qed.

Lemma xdiff_straight : forall l op r t t', expression w l -> expression w r -> affine l -> affine r -> t < t' ->
  (forall a, In a (map row_time (e_data E)) -> a <= t \/ t' <= a) -> straight (xdiff l op r) t t'.
Proof.
  intros l op r t t' Xl Xr Al Ar L H. pose proof (affine_straight l t t' Xl Al L H) as A. pose proof (affine_straight r t t' Xr Ar L H) as B.
  unfold xdiff. destruct op; cbn [atom_op]; apply straight_minus; auto.
Qed.

(** ** Comparisons *)
Lemma atom_rob : forall val l op r t v, expression w l -> expression w r ->
  rob (eff E) val (e_data E) (FAtom l op r) t v <-> v = xdiff l op r t.
Proof.
  intros val l op r t v Xl Xr. unfold xdiff. cbn [rob].
  destruct op; (split; [intros (a & b & H1 & H2 & ->)|intros ->; do 2 eexists; rewrite !expr_xval by auto; auto]);
    apply expr_xval in H1; auto; apply expr_xval in H2; auto; subst; reflexivity.
Qed.

(** The evaluation interval of a comparison with arithmetic ends at a sample, or after the data. *)
Definition aligned (l r : fml Qc) (e : Qc) : Prop :=
  (is_leaf l /\ is_leaf r) \/ In e (map row_time (e_data E)) \/ T <= e.

(** What an atom object keeps between passes. *)
Record atom_state (s e : Qc) (n : nst Qc) (tl tr : tree Qc) : Prop := {
  as_start : start_time n = s;
  as_stop : end_time n = e;
  as_end : endTime (nz n) = qmin e T;
  as_done : SafeTree.adone E w n tl tr
}.

(** The signal of an atom: the difference of its operands on [[s, e]]; it has a
    sample at [s] and at each time of the data. *)
Record atom_sig (l : fml Qc) (op : comparator) (r : fml Qc) (s e : Qc) (z : signal Qc) : Prop := {
  at_begin : beginTime z = s;
  at_end : endTime z = e;
  at_rep : crepQ (fun u v => xdiff l op r u = v) z;
  at_all : forall t, In t (map row_time (e_data E)) -> s <= t -> t <= e -> In t (map time (samples z))
}.

Lemma leaf_simple : forall f, expression w f -> is_leaf f -> simple_operand w f.
Proof. intros [] X L; cbn in *; try contradiction; auto. Qed.

Lemma last_row : In T (map row_time (e_data E)).
Proof.
  unfold T, last_time. destruct TR as (ND & _). destruct (e_data E) as [|d0 dd] using rev_ind; [congruence|].
  rewrite map_app. cbn [map]. rewrite last_last. apply in_or_app. right. left. reflexivity.
Qed.

Lemma rows_incr : incr (map row_time (e_data E)).
Proof.
  destruct TR as (_ & R & _). clear -R. unfold column in R. induction (e_data E) as [|d l IH]; cbn [map incr rising] in *; [auto|].
  destruct R as [R1 R2]. split; [|apply IH; exact R2]. rewrite Forall_map in *. exact R1.
Qed.

Lemma row_le : forall a, In a (map row_time (e_data E)) -> a <= T.
Proof.
  intros a A. pose proof rows_incr as R. unfold T, last_time. destruct (map row_time (e_data E)) as [|b l]; [destruct A|].
  destruct (incr_bounds b l R) as [_ B]. rewrite Forall_forall in B. apply B. exact A.
Qed.

Lemma atom_pass1 : forall l op r s e, expression w l -> expression w r -> affine l -> affine r -> aligned l r e ->
  0 <= e -> s <= e -> s <= T ->
  exists v n' tl' tr', compute_rob E (prep (FAtom l op r) s e) = Ok (v, TAtom n' tl' op tr') /\
    atom_state s e n' tl' tr' /\ atom_sig l op r s (qmin e T) (nz n') /\ v = xdiff l op r s.
Proof.
  intros l op r s e Xl Xr Al Ar AG H0 H1 H2. assert (SE : s <= qmin e T) by (unfold qmin; destruct (Qclt_le_dec T e); auto).
  destruct (SafeTree.atom_pass1 E w TR SPC s e (prep l s e) op (prep r s e) H0) as (v' & l' & r' & z & B1 & B2).
  { apply SafeTree.xini_build; auto. }
  { apply SafeTree.xini_build; auto. }
  change (prep (FAtom l op r) s e) with (TAtom (SafeTree.start s e) (prep l s e) op (prep r s e)).
  assert (K : atom_sig l op r s (qmin e T) z /\ v' = xdiff l op r s).
  { destruct (cmp_pass1 l op r s e Xl Xr H0 H1 H2) as (t1 & A1 & A2 & A3 & A4).
    change (prep (FAtom l op r) s e) with (TAtom (SafeTree.start s e) (prep l s e) op (prep r s e)) in A1.
    rewrite A1 in B1. injection B1 as <- ->. split; [|reflexivity]. cbn [tz node with_z nz] in A2, A3, A4.
    destruct AG as [[Ll Lr]|AG].
    - (* signals and constants *)
      pose proof (leaf_simple _ Xl Ll) as Sl. pose proof (leaf_simple _ Xr Lr) as Sr.
      destruct (simple_atom E w LIN SPC TR l op r (fresh s e) (prep l s e) (prep r s e) (fresh s e) (fresh s e) s e)
        as (v & n' & tl' & tr' & C1 & [C2 C3 C4 C5] & C6); auto; try (apply leaf_prep; auto).
      change (fresh s e) with (SafeTree.start s e) in C1. rewrite A1 in C1. injection C1 as _ <- _ _. cbn [with_z nz] in *.
      assert (AF : forall u, atom_fun E l op r u = xdiff l op r u).
      { intros u. unfold atom_fun, xdiff. destruct l; try contradiction; destruct r; try contradiction; reflexivity. }
      constructor; auto. destruct C4 as [N P]. split; auto. eapply prepQ_impl; [exact P|]. intros u y _ _ <-. symmetry. apply AF.
    - (* arithmetic *)
      assert (IE : In (qmin e T) (map row_time (e_data E))).
      { unfold qmin. destruct (Qclt_le_dec T e) as [C|C]; [apply last_row|]. destruct AG as [AG|AG]; [exact AG|].
        replace e with T by (apply Qcle_antisym; auto). apply last_row. }
      assert (IL : In (qmin e T) (map time (samples z))) by (apply (sa_times _ _ _ _ A2); right; split; [exact IE|split; [exact SE|apply Qcle_refl]]).
      assert (LA : last (map time (samples z)) 0 = qmin e T).
      { pose proof (sa_inc _ _ _ _ A2) as I. apply increasing_incr in I.
        assert (NE : map time (samples z) <> []) by (intro C; rewrite C in IL; exact IL).
        pose proof (last_in_q _ NE) as LI. apply (sa_times _ _ _ _ A2) in LI.
        destruct (map time (samples z)) as [|b k] eqn:EM; [congruence|]. destruct (incr_bounds b k I) as [_ B]. rewrite Forall_forall in B.
        specialize (B _ IL). apply Qcle_antisym; [|exact B]. destruct LI as [->|LI]; [exact SE|apply LI]. }
      assert (EN : endTime z = qmin e T) by (destruct A4 as [->| ->]; auto).
      assert (TP : exists p k, samples z = p :: k /\ time p = s).
      { destruct (samples z) as [|p k] eqn:EM; [destruct IL|]. exists p, k. split; [reflexivity|].
        pose proof (sa_inc _ _ _ _ A2) as I. apply increasing_incr in I. destruct (incr_bounds _ _ I) as [B _].
        assert (J : In s (map time (p :: k))) by (apply (sa_times _ _ _ _ A2); auto). rewrite Forall_forall in B. specialize (B _ J).
        assert (K : In (time p) (map time (p :: k))) by (left; reflexivity). apply (sa_times _ _ _ _ A2) in K.
        destruct K as [K|(_ & K & _)]; [auto|apply Qcle_antisym; auto]. }
      destruct TP as (p & k & EP & TP).
      constructor; auto.
      + split; [rewrite EP; discriminate|]. rewrite A3, EN, <- LA, EP, <- TP. rewrite EP in A2. apply straight_rep; [apply A2|apply A2|apply A2|].
        intros l1 a b l2 EQ. assert (EQ' : map time (p :: k) = map time l1 ++ time a :: time b :: map time l2) by (rewrite EQ, map_app; reflexivity).
        pose proof (sa_inc _ _ _ _ A2) as I. apply increasing_incr in I.
        assert (Ia : In (time a) (map time (p :: k))) by (rewrite EQ'; apply in_or_app; right; left; reflexivity).
        assert (Ib : In (time b) (map time (p :: k))) by (rewrite EQ'; apply in_or_app; right; right; left; reflexivity).
        assert (LB : forall x, In x (map time (p :: k)) -> s <= x /\ x <= qmin e T).
        { intros x J. apply (sa_times _ _ _ _ A2) in J. destruct J as [->|J]; [split; [qlra|exact SE]|tauto]. }
        apply xdiff_straight; auto.
        * rewrite EQ' in I. clear -I. induction l1; cbn [map app] in I; [|apply IHl1; apply I]. destruct I as [I _]. inversion I; auto.
        * intros x J. destruct (Qclt_le_dec x s) as [L|L]; [left; destruct (LB _ Ia); qlra|]. destruct (Qclt_le_dec (qmin e T) x) as [L'|L']; [right; destruct (LB _ Ib); qlra|].
          assert (K : In x (map time (p :: k))) by (apply (sa_times _ _ _ _ A2); auto). rewrite EQ' in K, I. eapply incr_split; eauto.
      + intros t I T1 T2. apply (sa_times _ _ _ _ A2). right. auto. }
  destruct K as [K1 K2]. do 4 eexists. split; [exact B1|]. cbn [with_z nz]. split; [|split; [exact K1|exact K2]].
  constructor; try reflexivity; [cbn [with_z nz]; apply K1|exact B2].
Qed.

Lemma atom_pass2 : forall op s e n tl tr, atom_state s e n tl tr ->
  exists p q tl' tr', samples (nz n) = p :: q /\
    compute_rob E (TAtom n tl op tr) = Ok (value p, TAtom n tl' op tr') /\ atom_state s e n tl' tr'.
Proof.
  intros op s e n tl tr [A1 A2 A3 A4]. destruct (SafeTree.atom_pass2 E w TR SPC n tl op tr A4) as (v & l' & r' & C1 & C2 & C3).
  unfold front_value in C3. destruct (samples (nz n)) as [|p q]; [discriminate|]. cbn [deref bind] in C3. injection C3 as <-.
  exists p, q, l', r'. split; [reflexivity|]. split; [exact C1|]. constructor; auto.
Qed.
End Expr.
