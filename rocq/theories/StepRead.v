(** Reading a trace into a signal that holds its last value, and the signals of
    expressions and comparisons over it. *)
From Coq Require Import List QArith Qcanon Bool String Lia.
From Verif Require Import Num Base Signal QcTac Spec Robust Repr SimplifyProof Lip Closed SigProof ResizeProof Transducer StlSpec TreeProof TimedProof ReadProof AtomProof ExprPass StepSig StepBounded StepSpec.
Import ListNotations.
Local Open Scope Qc_scope.

(** ** Held values as a function *)
Fixpoint hold (l : list (Qc * Qc)) (u : Qc) : Qc :=
  match l with
  | nil => 0
  | (t1, v1) :: l' =>
      match l' with
      | nil => v1
      | (t2, _) :: _ => if Qclt_le_dec u t2 then v1 else hold l' u
      end
  end.

Lemma hold_cons : forall t1 v1 t2 v2 l u, hold ((t1, v1) :: (t2, v2) :: l) u =
  if Qclt_le_dec u t2 then v1 else hold ((t2, v2) :: l) u.
Proof. reflexivity. Qed.

Lemma rising_above : forall t1 v1 l u, rising ((t1, v1) :: l) -> u < t1 -> Forall (fun q => u < fst q) l.
Proof.
  intros t1 v1 l u [R _] H. eapply Forall_impl; [|exact R]. cbn. intros. qlra.
Qed.

Lemma hold_held : forall l u, l <> [] -> rising l -> held l u (hold l u).
Proof.
  induction l as [|[t1 v1] l IH]; intros u N R; [congruence|].
  destruct l as [|[t2 v2] l].
  - cbn [hold]. destruct (Qclt_le_dec u t1) as [B|B].
    + right. eauto.
    + left. eapply prev_at with (l1 := []); [reflexivity|auto|constructor].
  - rewrite hold_cons. destruct (Qclt_le_dec u t2) as [B|B].
    + destruct (Qclt_le_dec u t1) as [C|C]; [right; eauto|].
      left. eapply prev_at with (l1 := []); [reflexivity|auto|]. constructor; [exact B|].
      eapply rising_above; [|exact B]. apply R.
    + destruct (IH u ltac:(discriminate) ltac:(apply R)) as [H|(t0 & l' & H & H')].
      * left. destruct H as [l1 a b l2 H1 H2 H3]. eapply prev_at with (l1 := (t1, v1) :: l1); [|exact H2|exact H3].
        cbn [app]. rewrite <- H1. reflexivity.
      * exfalso. injection H as H1 H2 H3. qlra.
Qed.

Lemma held_unique : forall l u v v', rising l -> held l u v -> held l u v' -> v = v'.
Proof.
  assert (P : forall l u v v', rising l -> previous l u v -> previous l u v' -> v = v').
  { intros l u v v' R [l1 a b l2 E1 E2 E3] [m1 c d m2 F1 F2 F3].
    assert (X : forall l1 m1 a b c d l2 m2, rising (l1 ++ (a, b) :: l2) -> l1 ++ (a, b) :: l2 = m1 ++ (c, d) :: m2 -> a <= u -> c <= u ->
      Forall (fun q : Qc * Qc => u < fst q) l2 -> Forall (fun q : Qc * Qc => u < fst q) m2 -> b = d).
    { clear. induction l1 as [|p l1 IH]; intros [|q m1] a b c d l2 m2 R E A C Fa Fc; cbn [app] in *.
      - congruence.
      - injection E as E1 E2. subst. rewrite Forall_forall in Fa. specialize (Fa (c, d)).
        exfalso. assert (u < c) by (apply Fa; apply in_or_app; right; left; reflexivity). qlra.
      - injection E as E1 E2. subst. rewrite Forall_forall in Fc. specialize (Fc (a, b)).
        exfalso. assert (u < a) by (apply Fc; apply in_or_app; right; left; reflexivity). qlra.
      - injection E as E1 E2. eapply IH; eauto. apply R. }
    subst l. eapply X; eauto. }
  assert (Q : forall l u v v', rising l -> previous l u v -> (exists t0 l', l = (t0, v') :: l' /\ u < t0) -> v = v').
  { intros l u v v' R [l1 a b l2 E1 E2 E3] (t0 & l' & F1 & F2). exfalso. rewrite F1 in E1, R.
    destruct l1 as [|p l1]; cbn [app] in E1; injection E1 as E4 E5; [qlra|].
    subst. pose proof (rising_above _ _ _ _ R F2) as X. rewrite Forall_forall in X. specialize (X (a, b)).
    assert (u < a) by (apply X; apply in_or_app; right; left; reflexivity). qlra. }
  intros l u v v' R [H|H] [H'|H']; eauto.
  - symmetry. eauto.
  - destruct H as (t0 & l1 & -> & _), H' as (t1 & l2 & E & _). congruence.
Qed.

Lemma held_hold : forall l u v, l <> [] -> rising l -> held l u v <-> v = hold l u.
Proof.
  intros l u v N R. split.
  - intros H. eapply held_unique; eauto. apply hold_held; auto.
  - intros ->. apply hold_held; auto.
Qed.

(** Constant as long as no sample is passed. *)
Lemma hold_between : forall l a u, rising l -> a <= u -> (forall t, In t (map fst l) -> t <= a \/ u < t) -> hold l u = hold l a.
Proof.
  induction l as [|[t1 v1] l IH]; intros a u R L H; [reflexivity|]. destruct l as [|[t2 v2] l]; [reflexivity|].
  rewrite !hold_cons.
  destruct (H t2 (or_intror (or_introl eq_refl))) as [A|A]; destruct (Qclt_le_dec u t2) as [B|B], (Qclt_le_dec a t2) as [C|C]; try qlra; try reflexivity.
  apply IH; auto; [apply R|]. intros t I. apply H. right. exact I.
Qed.

Lemma hold_at : forall l t v, rising l -> In (t, v) l -> hold l t = v.
Proof.
  intros l t v R I. symmetry. apply held_hold; auto; [intro C; subst; destruct I|]. left.
  apply in_split in I. destruct I as (l1 & l2 & ->). eapply prev_at; [reflexivity|qlra|].
  destruct (rising_app _ _ R) as (_ & [R2 _] & _). exact R2.
Qed.

Lemma hold_first : forall t v l u, rising ((t, v) :: l) -> u < t -> hold ((t, v) :: l) u = v.
Proof. intros t v l u R H. symmetry. apply held_hold; [discriminate|auto|]. right. eauto. Qed.

(** ** Signals with a sample at the start and at every row *)
Section Held.
Variable E : env Qc.
Variable w : nat.
Hypothesis TR : trace w (e_data E).
Notation rows := (map row_time (e_data E)).
Let T := last_time (e_data E).

Record psig (F : Qc -> Qc) (s e : Qc) (z : signal Qc) : Prop := {
  ps_begin : beginTime z = s;
  ps_inc : increasing (samples z);
  ps_flat : flat (samples z);
  ps_val : Forall (fun p => value p = F (time p)) (samples z);
  ps_times : forall a, In a (map time (samples z)) <-> a = s \/ (In a rows /\ s <= a /\ a <= e)
}.

(** [F] only changes at rows. *)
Definition stepwise (F : Qc -> Qc) : Prop := forall a u, a <= u -> (forall t, In t rows -> t <= a \/ u < t) -> F u = F a.

Lemma psig_times : forall F G s e z z', psig F s e z -> psig G s e z' -> map time (samples z) = map time (samples z').
Proof.
  intros F G s e z z' A B. apply incr_unique; [apply increasing_incr, A|apply increasing_incr, B|].
  intros a. rewrite (ps_times _ _ _ _ A), (ps_times _ _ _ _ B). reflexivity.
Qed.

Lemma psig_head : forall F s e z, psig F s e z -> exists p l, samples z = p :: l /\ time p = s /\ value p = F s.
Proof.
  intros F s e z H. pose proof (ps_times _ _ _ _ H) as X. destruct (samples z) as [|p l] eqn:S.
  - destruct (proj2 (X s) (or_introl eq_refl)).
  - assert (Tp : time p = s).
    { pose proof (ps_inc _ _ _ _ H) as I. rewrite S in I. destruct I as [I _]. rewrite Forall_forall in I.
      assert (J : In s (map time (p :: l))) by (apply X; auto).
      assert (K : In (time p) (map time (p :: l))) by (left; reflexivity). apply X in K.
      destruct J as [J|J]; [auto|]. apply in_map_iff in J. destruct J as (q & Tq & J). specialize (I q J).
      destruct K as [K|(_ & K & _)]; [auto|qlra]. }
    exists p, l. split; [reflexivity|]. split; [exact Tp|]. pose proof (ps_val _ _ _ _ H) as V. rewrite S in V. apply Forall_inv in V. congruence.
Qed.

Lemma split_at : forall (l : list (sample Qc)) u p l', increasing l -> l = p :: l' -> time p <= u ->
  exists l1 q l2, l = l1 ++ q :: l2 /\ time q <= u /\ Forall (fun r => u < time r) l2.
Proof.
  induction l as [|p0 l IH]; intros u p l' I E0 H; [discriminate|]. injection E0 as -> ->.
  destruct l' as [|q l'].
  - exists [], p, []. repeat split; auto.
  - destruct (Qclt_le_dec u (time q)) as [B|B].
    + exists [], p, (q :: l'). split; [reflexivity|]. split; [exact H|]. destruct I as (_ & I & _). constructor; [exact B|].
      eapply Forall_impl; [|exact I]. cbn. intros. qlra.
    + destruct (IH u q l' ltac:(apply I) eq_refl B) as (l1 & r & l2 & -> & R1 & R2). exists (p :: l1), r, l2. auto.
Qed.

Lemma psig_eval : forall F s e z, psig F s e z -> stepwise F -> forall u, s <= u -> u <= e -> eval (samples z) u = Some (F u).
Proof.
  intros F s e z H ST u U1 U2. destruct (psig_head _ _ _ _ H) as (p & l & S & Tp & Vp).
  destruct (split_at (samples z) u p l) as (l1 & q & l2 & Q1 & Q2 & Q3); [apply H|exact S|qlra|].
  rewrite Q1, eval_app, eval_cons_all by auto.
  assert (Zq : deriv q = 0 /\ value q = F (time q)).
  { pose proof (ps_flat _ _ _ _ H) as Z. pose proof (ps_val _ _ _ _ H) as V. unfold flat in Z. rewrite Forall_forall in Z, V.
    assert (J : In q (samples z)) by (rewrite Q1; apply in_or_app; right; left; reflexivity). auto. }
  destruct Zq as [Zq Vq]. rewrite line_flat, Vq by auto. f_equal. symmetry. apply ST; auto.
  intros t It. destruct (Qclt_le_dec (time q) t) as [B|B]; [|auto]. right.
  destruct (Qclt_le_dec u t) as [C|C]; [auto|]. exfalso.
  assert (Lq : s <= time q).
  { assert (J : In (time q) (map time (samples z))) by (rewrite Q1, map_app; apply in_or_app; right; left; reflexivity).
    apply (ps_times _ _ _ _ H) in J. destruct J as [->|J]; [qlra|tauto]. }
  assert (J : In t (map time (samples z))) by (apply (ps_times _ _ _ _ H); right; split; [auto|split; qlra]).
  apply in_map_iff in J. destruct J as (r & <- & J). pose proof (ps_inc _ _ _ _ H) as I. rewrite Q1 in I, J.
  apply in_app_or in J. apply inc_app in I. destruct I as (_ & _ & I). destruct J as [J|[<-|J]].
  - specialize (I r q J (or_introl eq_refl)). qlra.
  - qlra.
  - rewrite Forall_forall in Q3. specialize (Q3 r J). qlra.
Qed.

Lemma psig_step : forall F s e z, psig F s e z -> stepwise F -> s <= e -> endTime z = e -> step z F.
Proof.
  intros F s e z H ST SE He. constructor; try apply H.
  - destruct (psig_head _ _ _ _ H) as (p & l & S & Tp & _). exists p, l. split; [exact S|]. rewrite (ps_begin _ _ _ _ H). exact Tp.
  - apply Forall_forall. intros q J. apply (in_map time) in J. apply (ps_times _ _ _ _ H) in J. rewrite He.
    destruct J as [->|J]; [auto|tauto].
  - rewrite (ps_begin _ _ _ _ H), He. apply (psig_eval _ _ _ _ H ST).
Qed.

(** ** Leaves *)
Lemma front_keeps : forall x s l e, resize_front x s = Ok (l, e) -> forall q, In q (samples x) -> s <= time q -> In q l.
Proof.
  intros x s l e H q J L. unfold resize_front in H. qtest (nltb s (beginTime x)).
  - destruct (samples x) as [|f r] eqn:S; [discriminate|]. cbn [deref bind] in H. injection H as H1 H2. subst l. right. exact J.
  - destruct (pop_front_spec s (samples x) default_sample) as [pre P].
    destruct (pop_front_lt s default_sample (samples x)) as [f l']. destruct P as (P1 & P2 & P3 & _).
    assert (J' : In q l').
    { rewrite P1 in J. apply in_app_or in J. destruct J as [J|J]; auto. rewrite Forall_forall in P2. specialize (P2 q J). qlra. }
    destruct l' as [|q' l']; [destruct J'|]. qtest (nltb s (time q')); injection H as H1 H2; subst l; [right|]; exact J'.
Qed.

Lemma prev_in : forall l q, In q (prev_samples l) -> In (tv q) l /\ deriv q = 0.
Proof.
  intros l q J. unfold prev_samples in J. apply in_map_iff in J. destruct J as ([t v] & <- & J). auto.
Qed.

Lemma prev_times : forall l, map time (prev_samples l) = map fst l.
Proof. intros l. unfold prev_samples. rewrite map_map. reflexivity. Qed.

Lemma prev_flat : forall l, flat (prev_samples l).
Proof. intros l. apply Forall_forall. intros q J. apply prev_in in J. apply J. Qed.

Lemma resize_held : forall U r s e tl b v, rising (U ++ r) -> U <> [] -> map fst (U ++ r) = rows ->
  b = hd 0 (map fst U) -> tl = last (map fst U) 0 -> s <= e -> e <= tl ->
  exists z, resize (mkSig (prev_samples U) b e) s e v = Ok z /\ psig (hold (U ++ r)) s e z /\ endTime z = e.
Proof.
  intros U r s e tl b v R N MR Hb Htl H1 H2.
  destruct (rising_app _ _ R) as (RU & _ & RR).
  assert (INC : increasing (prev_samples U)) by (apply (rec_increasing PREVIOUS); auto).
  assert (HV : forall q, In q (prev_samples U) -> value q = hold (U ++ r) (time q)).
  { intros q J. apply prev_in in J. destruct J as [J _]. symmetry. apply hold_at; auto. apply in_or_app. left. exact J. }
  assert (SB : forall q, In q (prev_samples U) -> b <= time q).
  { intros q J. apply prev_in in J. destruct J as [J _]. subst b. apply (hd_rising U (tv q)) in J; auto. }
  destruct U as [|[t0 v0] U]; [congruence|]. cbn [map hd fst] in Hb. subst t0.
  assert (F : exists l, resize_front (mkSig (prev_samples ((b, v0) :: U)) b e) s = Ok (l, e) /\ increasing l /\ flat l /\
    (exists p l', l = p :: l' /\ time p = s) /\ Forall (fun p => value p = hold (((b, v0) :: U) ++ r) (time p)) l /\
    (forall q, In q l -> time q = s \/ In q (prev_samples ((b, v0) :: U)))).
  { destruct (Qclt_le_dec s b) as [L|L].
    - unfold resize_front. cbn [samples beginTime endTime]. assert (B : nltb s b = true) by (apply nltb_true; auto). rewrite B.
      cbn [prev_samples map deref bind value fst snd]. eexists. split; [reflexivity|]. split; [|split; [|split; [|split]]].
      + split; [|exact INC]. apply Forall_forall. intros q J. specialize (SB q J). cbn [time]. qlra.
      + apply Forall_cons; [reflexivity|apply (prev_flat ((b, v0) :: U))].
      + eauto.
      + apply Forall_cons.
        * cbn [value time]. symmetry. apply (hold_first b v0 (U ++ r)); [exact R|exact L].
        * apply Forall_forall. intros q J. apply HV. exact J.
      + intros q [<-|J]; auto.
    - destruct (front_step (mkSig (prev_samples ((b, v0) :: U)) b e) s (mkS b v0 0) (prev_samples U)) as (l & F1 & F2 & F3 & F4 & F5 & F6);
        cbn [samples beginTime endTime]; auto; [apply prev_flat|]. cbn [samples endTime] in *.
      exists l. split; [exact F1|]. split; [exact F2|]. split; [exact F3|]. split; [exact F4|]. split; [|exact F6].
      apply Forall_forall. intros q J. destruct (F6 q J) as [J'|J']; [|auto]. rewrite J'.
      (* the new front *)
      assert (V : eval l (time q) = Some (value q)).
      { apply in_split in J. destruct J as (l1 & l2 & ->). apply eval_at. exact F2. }
      rewrite J', F5 in V by qlra.
      destruct (split_at (prev_samples ((b, v0) :: U)) s (mkS b v0 0) (prev_samples U)) as (l1 & q' & l2 & Q1 & Q2 & Q3); auto.
      rewrite Q1, eval_app, eval_cons_all in V by auto.
      assert (Jq : In q' (prev_samples ((b, v0) :: U))) by (rewrite Q1; apply in_or_app; right; left; reflexivity).
      rewrite line_flat in V by (apply prev_in in Jq; apply Jq). injection V as V. rewrite <- V, (HV _ Jq). symmetry.
      apply hold_between; auto. intros t It. rewrite map_app in It. apply in_app_or in It. destruct It as [It|It].
      + rewrite <- prev_times in It. apply in_map_iff in It. destruct It as (q2 & <- & It). pose proof INC as I2. rewrite Q1 in It, I2.
        apply inc_app in I2. destruct I2 as (_ & _ & I2). apply in_app_or in It. destruct It as [It|[<-|It]].
        * left. specialize (I2 q2 q' It (or_introl eq_refl)). qlra.
        * left. qlra.
        * right. rewrite Forall_forall in Q3. auto.
      + right. destruct (last_in ((b, v0) :: U) N) as (p1 & I1 & E1). apply in_map_iff in It. destruct It as (p2 & <- & It).
        specialize (RR p1 p2 I1 It). qlra. }
  destruct F as (l & F1 & F2 & F3 & (p & l' & F4 & F4') & F5 & F6).
  destruct (cut_step e l p l' F2 F3 F4 ltac:(qlra)) as (l1 & C1 & C2 & C3 & (l2 & C4) & C5 & C6 & C7).
  exists (mkSig l1 s e). split; [|split; [|reflexivity]].
  - unfold resize. rewrite eps_lt by auto. assert (B : nltb e s = false) by (apply nltb_false; auto). rewrite B.
    rewrite F1. cbn [bind]. unfold resize_back.
    assert (B2 : nltb e e = false) by (apply nltb_false; qlra). rewrite B2. cbn [bind]. rewrite C1, C4. reflexivity.
  - constructor; cbn [beginTime samples]; auto.
    + rewrite Forall_forall in *. auto.
    + intros a. rewrite <- MR. split.
      * intros J. apply in_map_iff in J. destruct J as (q & <- & J). rewrite Forall_forall in C5. specialize (C5 q J).
        destruct (F6 q (C7 q J)) as [K|K]; [auto|]. right. split; [|split; [|exact C5]].
        -- rewrite map_app. apply in_or_app. left. rewrite <- prev_times. apply in_map. exact K.
        -- assert (I1 : In q l) by auto. rewrite F4 in I1, F2. destruct I1 as [<-|I1]; [qlra|]. destruct F2 as [F2 _]. rewrite Forall_forall in F2.
           specialize (F2 q I1). qlra.
      * intros [->|(A & B & C)]; [rewrite C4; left; exact F4'|].
        rewrite map_app in A. apply in_app_or in A. destruct A as [A|A].
        -- rewrite <- prev_times in A. apply in_map_iff in A. destruct A as (q & <- & A).
           apply in_map. pose proof (front_keeps _ _ _ _ F1 q A B) as K.
           destruct (pop_back_le e l) as (l3 & D1 & D2 & D3); [apply increasing_ordered; auto|].
           rewrite C1 in D1. rewrite D1 in K. apply in_app_or in K. destruct K as [K|K]; [exact K|].
           rewrite Forall_forall in D3. specialize (D3 q K). qlra.
        -- exfalso. destruct (last_in ((b, v0) :: U) N) as (p1 & I1 & E1). apply in_map_iff in A. destruct A as (p2 & <- & It).
           specialize (RR p1 p2 I1 It). qlra.
Qed.

Lemma read_snoc_p : forall e pts pre s w0 b k, rising (pre ++ (s, w0) :: pts) ->
  read_pts PREVIOUS e (mkSig (prev_samples (pre ++ [(s, w0)])) b s) s w0 pts k =
  Ok (mkSig (prev_samples (pre ++ (s, w0) :: upto s e pts)) b (last (s :: map fst (upto s e pts)) 0),
      last (s :: map fst (upto s e pts)) 0, last (w0 :: map snd (upto s e pts)) 0,
      (k + List.length (upto s e pts))%nat).
Proof.
  induction pts as [|[t v] pts IH]; intros pre s w0 b k R; cbn [read_pts upto]; qcase; cbn [map last List.length fst snd];
    try (rewrite Nat.add_0_r; reflexivity).
  assert (D : s < t). { destruct (rising_app _ _ R) as (_ & R2 & _). destruct R2 as [R2 _]. inversion R2; auto. }
  change (prev_samples (pre ++ [(s, w0)])) with (rec_samples PREVIOUS (pre ++ [(s, w0)])).
  rewrite (append_step PREVIOUS pre s w0 t v b D). cbn [bind].
  change (rec_samples PREVIOUS) with prev_samples.
  replace (pre ++ [(s, w0); (t, v)]) with ((pre ++ [(s, w0)]) ++ [(t, v)]) by (rewrite <- app_assoc; reflexivity).
  rewrite IH by (rewrite <- app_assoc; exact R). rewrite <- app_assoc. cbn [app].
  replace (S k + List.length (upto t e pts))%nat with (k + S (List.length (upto t e pts)))%nat by lia.
  reflexivity.
Qed.

Lemma read_all_p : forall e t0 v0 v pts, rising ((t0, v0) :: pts) -> 0 <= e ->
  let U := (t0, v0) :: upto t0 e pts in
  read_pts PREVIOUS e empty_signal n0 v ((t0, v0) :: pts) 0 =
  Ok (mkSig (prev_samples U) t0 (last (map fst U) 0), last (map fst U) 0, last (map snd U) 0, List.length U).
Proof.
  intros e t0 v0 v pts R H. cbn [read_pts].
  assert (B : nleb n0 e = true) by (apply nleb_true; exact H). rewrite B.
  rewrite append_first by reflexivity. cbn [bind].
  exact (read_snoc_p e pts [] t0 v0 t0 1%nat R).
Qed.

Lemma leaf_first_p : forall pts s e n v w0, pts <> [] -> rising pts -> map fst pts = rows -> nz n = empty_signal ->
  start_time n = s -> end_time n = e -> 0 <= e -> s <= e -> e <= T ->
  exists z t x k, read_pts PREVIOUS e (nz n) n0 v pts 0 = Ok (z, t, x, k) /\
    forall w', w' = w0 \/ w' = x -> exists z', trim_read n z t w' = Ok z' /\ psig (hold pts) s e z' /\ endTime z' = e.
Proof.
  intros pts s e n v w0 N R MR Z Hs He H0 H1 H2. destruct pts as [|[t0 v0] pts]; [congruence|].
  rewrite Z, (read_all_p e t0 v0 v pts R H0).
  destruct (upto_prefix pts t0 e) as (r & P1 & P2).
  remember (upto t0 e pts) as U0 eqn:EU. remember ((t0, v0) :: U0) as U eqn:EU2.
  assert (PU : (t0, v0) :: pts = U ++ r) by (rewrite EU2; cbn [app]; congruence).
  assert (NU : U <> []) by (subst U; discriminate).
  assert (P2' : r = [] \/ e < last (map fst U) 0) by (rewrite EU2; exact P2).
  rewrite PU in *. do 4 eexists. split; [reflexivity|]. intros w' _.
  set (tl := last (map fst U) 0) in *.
  assert (LE : e <= tl).
  { destruct P2' as [->|P2']; [|qlra]. rewrite app_nil_r in *. unfold tl. rewrite MR. exact H2. }
  unfold trim_read. cbn [samples beginTime endTime]. rewrite He, Hs.
  assert (Y : (if nltb e tl then mkSig (prev_samples U) t0 e else mkSig (prev_samples U) t0 tl) = mkSig (prev_samples U) t0 e).
  { qtest (nltb e tl); [reflexivity|]. f_equal. apply Qcle_antisym; auto. }
  rewrite Y. cbn [endTime].
  assert (Z2 : (if nltb s e then resize (mkSig (prev_samples U) t0 e) s (smax s e) w' else resize (mkSig (prev_samples U) t0 e) e e w') = resize (mkSig (prev_samples U) t0 e) s e w').
  { qtest (nltb s e); [rewrite smax_max by auto; reflexivity|].
    assert (SE : s = e) by (apply Qcle_antisym; auto). rewrite SE. reflexivity. }
  rewrite Z2. apply (resize_held U r s e tl t0 w'); auto. subst U. reflexivity.
Qed.

Hypothesis PRV : e_ip E = PREVIOUS.

Lemma leaf_pass_p : forall f t n s e, simple_operand w f -> leaf_tree E f t n 0 -> nz n = empty_signal ->
  start_time n = s -> end_time n = e -> 0 <= e -> s <= e -> e <= T ->
  exists v t' n' k', compute_rob E t = Ok (v, t') /\ leaf_tree E f t' n' k' /\
    psig (hold (leaf_points E f)) s e (nz n') /\ endTime (nz n') = e.
Proof.
  intros f t n s e S L Z Hs He H0 H1 H2.
  destruct (compute_leaf_ip E w TR f t n 0 S L ltac:(rewrite He; auto)
    (fun z k => psig (hold (leaf_points E f)) s e z /\ endTime z = e))
    as (v & t' & z' & k' & C1 & C2 & C3 & C4).
  - intros v w0. destruct (leaf_first_p (leaf_points E f) s e n v w0) as (z & t1 & x & k & R1 & R2); auto.
    + apply (points_some E w TR); auto.
    + apply (points_rising E w TR); auto.
    + apply (times_points E w); auto.
    + rewrite PRV, He. do 4 eexists. split; [exact R1|]. intros w' W. destruct (R2 w' W) as (z' & T1 & T2 & T3).
      exists z'. split; [exact T1|]. split; [split; auto|]. destruct (psig_head _ _ _ _ T2) as (p & l & -> & _). discriminate.
  - exists v, t', (with_z n z'), k'. auto.
Qed.

(** ** Expressions *)
Fixpoint pval (f : fml Qc) (u : Qc) : Qc :=
  match f with
  | FSig _ _ | FConst _ _ => hold (leaf_points E f) u
  | FAbs c => qmax (pval c u) (- pval c u)
  | FPlus l r => pval l u + pval r u
  | FMinus l r => pval l u - pval r u
  | FMult l r => pval l u * pval r u
  | _ => 0
  end.

Notation Expr := (expr_of held (eff E) (e_data E)).

Lemma hold_level : forall c l u, Forall (fun p : Qc * Qc => snd p = c) l -> l <> [] -> hold l u = c.
Proof.
  induction l as [|[t1 v1] l IH]; intros u F N; [congruence|].
  pose proof (Forall_inv F) as F1. pose proof (Forall_inv_tail F) as F2. cbn [snd] in F1.
  destruct l as [|[t2 v2] l]; [exact F1|]. rewrite hold_cons. destruct (Qclt_le_dec u t2); [exact F1|].
  apply IH; [exact F2|discriminate].
Qed.

Lemma leaf_hold : forall f t v, simple_operand w f -> Expr f t v <-> v = hold (leaf_points E f) t.
Proof.
  intros f t v H. pose proof (points_rising E w TR f H) as R. pose proof (points_some E w TR f H) as NE.
  destruct f; cbn [simple_operand] in H; try contradiction; cbn [expr_of leaf_points] in *.
  - apply held_hold; auto.
  - rewrite (hold_level (eff E p v0)); [tauto| |exact NE]. unfold level. apply Forall_forall. intros q I.
    apply in_map_iff in I. destruct I as (r & <- & _). reflexivity.
Qed.

Lemma expr_pval : forall f t v, expression w f -> Expr f t v <-> v = pval f t.
Proof.
  induction f; cbn [expression expr_of pval]; intros t v' X; try contradiction.
  - apply (leaf_hold (FSig var col)). exact X.
  - apply (leaf_hold (FConst p v)). exact X.
  - split; [intros (a & A & ->); apply IHf in A; auto; subst; reflexivity|intros ->; eexists; split; [apply IHf; auto|reflexivity]].
  - destruct X. split; [intros (a & b & A & B & ->); apply IHf1 in A; auto; apply IHf2 in B; auto; subst; reflexivity|intros ->; do 2 eexists; split; [apply IHf1; auto|split; [apply IHf2; auto|reflexivity]]].
  - destruct X. split; [intros (a & b & A & B & ->); apply IHf1 in A; auto; apply IHf2 in B; auto; subst; reflexivity|intros ->; do 2 eexists; split; [apply IHf1; auto|split; [apply IHf2; auto|reflexivity]]].
  - destruct X. split; [intros (a & b & A & B & ->); apply IHf1 in A; auto; apply IHf2 in B; auto; subst; reflexivity|intros ->; do 2 eexists; split; [apply IHf1; auto|split; [apply IHf2; auto|reflexivity]]].
Qed.

Lemma hold_stepwise : forall f, simple_operand w f -> stepwise (hold (leaf_points E f)).
Proof.
  intros f S a u L H. apply hold_between; auto; [apply (points_rising E w TR); auto|]. rewrite (times_points E w f S). exact H.
Qed.

Lemma pval_stepwise : forall f, expression w f -> stepwise (pval f).
Proof.
  induction f; cbn [expression pval]; intros X; try contradiction.
  - apply (hold_stepwise (FSig var col)). exact X.
  - apply (hold_stepwise (FConst p v)). exact X.
  - intros a u L H. rewrite (IHf X a u L H). reflexivity.
  - destruct X as [X1 X2]. intros a u L H. rewrite (IHf1 X1 a u L H), (IHf2 X2 a u L H). reflexivity.
  - destruct X as [X1 X2]. intros a u L H. rewrite (IHf1 X1 a u L H), (IHf2 X2 a u L H). reflexivity.
  - destruct X as [X1 X2]. intros a u L H. rewrite (IHf1 X1 a u L H), (IHf2 X2 a u L H). reflexivity.
Qed.

(** Points of [F] at given times. *)
Definition sampled_at (F : Qc -> Qc) (l : list Qc) : list (Qc * Qc) := map (fun t => (t, F t)) l.

Lemma psig_recorded : forall F G s e z, psig F s e z ->
  psig G s e (mkSig (prev_samples (sampled_at G (map time (samples z)))) s (last (map time (samples z)) 0)).
Proof.
  intros F G s e z H. pose proof (ps_inc _ _ _ _ H) as I. apply increasing_incr in I.
  assert (TV : map time (prev_samples (sampled_at G (map time (samples z)))) = map time (samples z)).
  { rewrite prev_times. unfold sampled_at. rewrite map_map. apply map_id. }
  constructor; cbn [samples beginTime endTime].
  - reflexivity.
  - apply (incr_increasing). rewrite TV. exact I.
  - apply prev_flat.
  - apply Forall_forall. intros p J. apply prev_in in J. destruct J as [J _]. unfold sampled_at in J.
    apply in_map_iff in J. destruct J as (a & EQ & _). injection EQ as E1 E2. congruence.
  - rewrite TV. apply (ps_times _ _ _ _ H).
Qed.

Lemma abs_loop_p : forall F l pre s0 w0 b, incr (s0 :: map time l) -> Forall (fun p => value p = F (time p)) l ->
  abs_loop PREVIOUS (mkSig (prev_samples (pre ++ [(s0, w0)])) b s0) l =
  Ok (mkSig (prev_samples (pre ++ (s0, w0) :: sampled_at (fun u => qmax (F u) (- F u)) (map time l))) b (last (s0 :: map time l) 0)).
Proof.
  intros F. induction l as [|p l IH]; intros pre s0 w0 b I V; [reflexivity|].
  pose proof (Forall_inv V) as V1. pose proof (Forall_inv_tail V) as V2. cbn [map] in I. destruct I as [I1 I2]. pose proof (Forall_inv I1) as I3.
  cbn [abs_loop]. pose proof (append_step PREVIOUS pre s0 w0 (time p) (nabs (value p)) b I3) as AS. cbn [rec_samples] in AS. rewrite AS. cbn [bind].
  change [(s0, w0); (time p, nabs (value p))] with ([(s0, w0)] ++ [(time p, nabs (value p))]). rewrite app_assoc.
  rewrite IH by auto. rewrite <- app_assoc. cbn [app map sampled_at].
  replace (nabs (value p)) with (qmax (F (time p)) (- F (time p))); [reflexivity|]. rewrite <- V1. symmetry. apply abs_max.
Qed.
Lemma abs_loop_p_first : forall F l, l <> [] -> incr (map time l) -> Forall (fun p => value p = F (time p)) l ->
  abs_loop PREVIOUS empty_signal l = Ok (mkSig (prev_samples (sampled_at (fun u => qmax (F u) (- F u)) (map time l))) (hd 0 (map time l)) (last (map time l) 0)).
Proof.
  intros F [|p l] N I V; [congruence|]. pose proof (Forall_inv V) as V1. pose proof (Forall_inv_tail V) as V2.
  cbn [abs_loop]. rewrite append_first by reflexivity. cbn [bind rec_samples].
  pose proof (abs_loop_p F l [] (time p) (nabs (value p)) (time p)) as A. cbn [app] in A. rewrite A by auto. cbn [map sampled_at hd].
  replace (nabs (value p)) with (qmax (F (time p)) (- F (time p))); [reflexivity|]. rewrite <- V1. symmetry. apply abs_max.
Qed.

Lemma bin_loop_p : forall g F G l r pre s0 w0 b, incr (s0 :: map time l) -> map time l = map time r ->
  Forall (fun p => value p = F (time p)) l -> Forall (fun p => value p = G (time p)) r ->
  bin_loop g PREVIOUS (mkSig (prev_samples (pre ++ [(s0, w0)])) b s0) l r =
  Ok (mkSig (prev_samples (pre ++ (s0, w0) :: sampled_at (fun u => g (F u) (G u)) (map time l))) b (last (s0 :: map time l) 0)).
Proof.
  intros g F G. induction l as [|p l IH]; intros [|p' r] pre s0 w0 b I T0 V W; try discriminate; [reflexivity|].
  pose proof (Forall_inv V) as V1. pose proof (Forall_inv_tail V) as V2. pose proof (Forall_inv W) as W1. pose proof (Forall_inv_tail W) as W2.
  cbn [map] in I, T0. injection T0 as T1 T2. destruct I as [I1 I2]. pose proof (Forall_inv I1) as I3.
  cbn [bin_loop deref bind tl]. pose proof (append_step PREVIOUS pre s0 w0 (time p) (g (value p) (value p')) b I3) as AS. cbn [rec_samples] in AS. rewrite AS. cbn [bind].
  change [(s0, w0); (time p, g (value p) (value p'))] with ([(s0, w0)] ++ [(time p, g (value p) (value p'))]). rewrite app_assoc.
  rewrite IH by auto. rewrite <- app_assoc. cbn [app map sampled_at].
  replace (g (value p) (value p')) with (g (F (time p)) (G (time p))); [reflexivity|]. rewrite V1, W1, T1. reflexivity.
Qed.
Lemma bin_loop_p_first : forall g F G l r, l <> [] -> incr (map time l) -> map time l = map time r ->
  Forall (fun p => value p = F (time p)) l -> Forall (fun p => value p = G (time p)) r ->
  bin_loop g PREVIOUS empty_signal l r = Ok (mkSig (prev_samples (sampled_at (fun u => g (F u) (G u)) (map time l))) (hd 0 (map time l)) (last (map time l) 0)).
Proof.
  intros g F G [|p l] [|p' r] N I T0 V W; try congruence; [discriminate|].
  pose proof (Forall_inv V) as V1. pose proof (Forall_inv_tail V) as V2. pose proof (Forall_inv W) as W1. pose proof (Forall_inv_tail W) as W2.
  cbn [map] in T0. injection T0 as T1 T2.
  cbn [bin_loop deref bind tl]. rewrite append_first by reflexivity. cbn [bind rec_samples].
  pose proof (bin_loop_p g F G l r [] (time p) (g (value p) (value p')) (time p)) as A. cbn [app] in A. rewrite A by auto. cbn [map sampled_at hd].
  replace (g (value p) (value p')) with (g (F (time p)) (G (time p))); [reflexivity|]. rewrite V1, W1, T1. reflexivity.
Qed.

Lemma atom_bin_loop : forall op l r z, map time l = map time r ->
  atom_loop op PREVIOUS z l r = bin_loop (atom_op op) PREVIOUS z l r.
Proof.
  induction l as [|p l IH]; intros [|q r] z H; try discriminate; [reflexivity|]. cbn [map] in H. injection H as H1 H2.
  cbn [atom_loop bin_loop deref bind tl].
  replace (match op with
    | LESSTHAN => appendSample3 PREVIOUS z (time p) (nsub (value q) (value p)) (nsub (deriv q) (deriv p))
    | GREATERTHAN => appendSample3 PREVIOUS z (time p) (nsub (value p) (value q)) (nsub (deriv p) (deriv q))
    end) with (appendSample PREVIOUS z (time p) (atom_op op (value p) (value q))).
  - destruct (appendSample PREVIOUS z (time p) (atom_op op (value p) (value q))); cbn [bind]; auto.
  - destruct op; reflexivity.
Qed.

Notation prep := (ExprPass.prep E).

Lemma psig_front : forall F s e z, psig F s e z -> front_value z = Ok (F s).
Proof. intros F s e z H. destruct (psig_head _ _ _ _ H) as (p & l & S & _ & V). unfold front_value. rewrite S. cbn [deref bind]. congruence. Qed.
Lemma psig_some : forall F s e z, psig F s e z -> samples z <> [] /\ hd 0 (map time (samples z)) = s.
Proof. intros F s e z H. destruct (psig_head _ _ _ _ H) as (p & l & S & X & V). rewrite S. split; [discriminate|exact X]. Qed.

Lemma expr_pass_p : forall f s e, expression w f -> 0 <= e -> s <= e -> e <= T ->
  exists v t', compute_rob E (prep f s e) = Ok (v, t') /\ psig (pval f) s e (tz t') /\
    ((is_leaf f /\ endTime (tz t') = e) \/ endTime (tz t') = last (map time (samples (tz t'))) 0).
Proof.
  intros f s e X H0 H1 H2.
  assert (LEAF : forall f, simple_operand w f -> is_leaf f -> (forall u, pval f u = hold (leaf_points E f) u) ->
    exists v t', compute_rob E (prep f s e) = Ok (v, t') /\ psig (pval f) s e (tz t') /\
    ((is_leaf f /\ endTime (tz t') = e) \/ endTime (tz t') = last (map time (samples (tz t'))) 0)).
  { intros g Sg Lg EQ. destruct (leaf_pass_p g (prep g s e) (fresh s e) s e) as (v & t' & n' & k' & A1 & A2 & A3 & A4); auto.
    { apply (leaf_prep E w). auto. }
    exists v, t'. split; [exact A1|]. unfold tz. rewrite (leaf_node _ _ _ _ _ A2). split; [|auto].
    destruct A3. constructor; auto. eapply Forall_impl; [|exact ps_val0]. intros q Hq. rewrite EQ. exact Hq. }
  assert (BIN : forall g l r,
    (exists v t', compute_rob E (prep l s e) = Ok (v, t') /\ psig (pval l) s e (tz t') /\
      ((is_leaf l /\ endTime (tz t') = e) \/ endTime (tz t') = last (map time (samples (tz t'))) 0)) ->
    (exists v t', compute_rob E (prep r s e) = Ok (v, t') /\ psig (pval r) s e (tz t') /\
      ((is_leaf r /\ endTime (tz t') = e) \/ endTime (tz t') = last (map time (samples (tz t'))) 0)) ->
    exists vl tl vr tr z, compute_rob E (prep l s e) = Ok (vl, tl) /\ compute_rob E (prep r s e) = Ok (vr, tr) /\
      bin_loop g PREVIOUS empty_signal (samples (tz tl)) (samples (tz tr)) = Ok z /\ psig (fun u => g (pval l u) (pval r u)) s e z /\
      endTime z = last (map time (samples z)) 0).
  { intros g l r (vl & tl & A1 & A2 & _) (vr & tr & B1 & B2 & _).
    pose proof (psig_recorded (pval l) (fun u => g (pval l u) (pval r u)) _ _ _ A2) as R.
    exists vl, tl, vr, tr. eexists. split; [exact A1|]. split; [exact B1|].
    destruct (psig_some _ _ _ _ A2) as [N Hd]. split.
    - apply (bin_loop_p_first g (pval l) (pval r)); [exact N|apply increasing_incr, A2|eapply psig_times; eauto|apply A2|apply B2].
    - rewrite Hd. split; [exact R|]. cbn [samples endTime]. rewrite prev_times. unfold sampled_at. rewrite map_map, map_id. reflexivity. }
  induction f; cbn [expression] in X; try contradiction.
  - apply LEAF; [exact X|exact Logic.I|reflexivity].
  - apply LEAF; [exact X|exact Logic.I|reflexivity].
  - destruct (IHf X) as (v & t' & A1 & A3 & _).
    change (prep (FAbs f) s e) with (TAbs (fresh s e) (prep f s e)). cbn [compute_rob]. rewrite A1. cbn [bind nz fresh]. rewrite PRV.
    destruct (psig_some _ _ _ _ A3) as [N Hd].
    rewrite (abs_loop_p_first (pval f)); [|exact N|apply increasing_incr, A3|apply A3]. cbn [bind].
    rewrite Hd. pose proof (psig_recorded (pval f) (fun u => qmax (pval f u) (- pval f u)) _ _ _ A3) as R. rewrite (psig_front _ _ _ _ R). cbn [bind].
    do 2 eexists. split; [reflexivity|]. cbn [tz node with_z nz]. split; [exact R|]. right. cbn [samples endTime]. rewrite prev_times. unfold sampled_at. rewrite map_map, map_id. reflexivity.
  - destruct X as [X1 X2]. destruct (BIN (@nadd Qc NumQc) f1 f2 (IHf1 X1) (IHf2 X2)) as (vl & tl & vr & tr & z & A1 & B1 & L & R & EN).
    change (prep (FPlus f1 f2) s e) with (TPlus (fresh s e) (prep f1 s e) (prep f2 s e)). cbn [compute_rob]. rewrite A1, PRV. cbn [bind nz fresh]. rewrite B1. cbn [bind]. rewrite L. cbn [bind]. rewrite (psig_front _ _ _ _ R). cbn [bind]. do 2 eexists. split; [reflexivity|]. split; [exact R|]. auto.
  - destruct X as [X1 X2]. destruct (BIN (@nsub Qc NumQc) f1 f2 (IHf1 X1) (IHf2 X2)) as (vl & tl & vr & tr & z & A1 & B1 & L & R & EN).
    change (prep (FMinus f1 f2) s e) with (TMinus (fresh s e) (prep f1 s e) (prep f2 s e)). cbn [compute_rob]. rewrite A1, PRV. cbn [bind nz fresh]. rewrite B1. cbn [bind]. rewrite L. cbn [bind]. rewrite (psig_front _ _ _ _ R). cbn [bind]. do 2 eexists. split; [reflexivity|]. split; [exact R|]. auto.
  - destruct X as [X1 X2]. destruct (BIN (@nmul Qc NumQc) f1 f2 (IHf1 X1) (IHf2 X2)) as (vl & tl & vr & tr & z & A1 & B1 & L & R & EN).
    change (prep (FMult f1 f2) s e) with (TMult (fresh s e) (prep f1 s e) (prep f2 s e)). cbn [compute_rob]. rewrite A1, PRV. cbn [bind nz fresh]. rewrite B1. cbn [bind]. rewrite L. cbn [bind]. rewrite (psig_front _ _ _ _ R). cbn [bind]. do 2 eexists. split; [reflexivity|]. split; [exact R|]. auto.
Qed.

(** ** Comparisons *)
Definition pdiff (l : fml Qc) (op : comparator) (r : fml Qc) (u : Qc) : Qc := atom_op op (pval l u) (pval r u).

Hypothesis SPC : e_sem E = SPACE.

Lemma atom_pass_p : forall l op r s e, expression w l -> expression w r -> is_leaf l \/ In e rows \/ s = e ->
  0 <= e -> s <= e -> e <= T ->
  exists t', compute_rob E (prep (FAtom l op r) s e) = Ok (pdiff l op r s, t') /\
    step (tz t') (pdiff l op r) /\ beginTime (tz t') = s /\ endTime (tz t') = e.
Proof.
  intros l op r s e Xl Xr AL H0 H1 H2.
  destruct (expr_pass_p l s e Xl H0 H1 H2) as (vl & tl & A1 & A2 & A3). destruct (expr_pass_p r s e Xr H0 H1 H2) as (vr & tr & B1 & B2 & _).
  change (prep (FAtom l op r) s e) with (TAtom (fresh s e) (prep l s e) op (prep r s e)).
  cbn [compute_rob]. rewrite A1. cbn [bind]. rewrite B1. cbn [bind nz fresh]. unfold compute_atom. rewrite PRV, SPC.
  pose proof (psig_times _ _ _ _ _ _ A2 B2) as TM. destruct (psig_some _ _ _ _ A2) as [N Hd].
  rewrite atom_bin_loop by exact TM. rewrite (bin_loop_p_first (atom_op op) (pval l) (pval r)); [|exact N|apply increasing_incr, A2|exact TM|apply A2|apply B2].
  cbn [bind samples beginTime]. rewrite Hd.
  pose proof (psig_recorded (pval l) (pdiff l op r) _ _ _ A2) as R. destruct (psig_head _ _ _ _ R) as (p & k & S & Tp & Vp).
  cbn [samples] in S. unfold pdiff in S at 1. rewrite S. cbn [deref bind]. rewrite Vp.
  eexists. split; [reflexivity|]. cbn [tz node with_z nz beginTime endTime].
  assert (EN : endTime (tz tl) = e).
  { destruct A3 as [[_ A3]|A3]; [exact A3|]. 
    assert (NL : map time (samples (tz tl)) <> []) by (destruct (samples (tz tl)); [congruence|discriminate]).
    pose proof (last_in_q _ NL) as LI. apply (ps_times _ _ _ _ A2) in LI.
    assert (LE : last (map time (samples (tz tl))) 0 <= e) by (destruct LI as [->|LI]; [auto|tauto]).
    assert (IE : is_leaf l \/ In e (map time (samples (tz tl)))).
    { destruct AL as [AL|[AL|AL]]; [auto| |]; right; apply (ps_times _ _ _ _ A2); [right; split; [auto|split; qlra]|left; auto]. }
    destruct IE as [IE|IE].
    - destruct (leaf_pass_p l (prep l s e) (fresh s e) s e) as (v' & t' & n' & k' & C1 & C2 & C3 & C4); auto.
      { apply (leaf_simple w); auto. }
      { apply (leaf_prep E w). apply (leaf_simple w); auto. }
      rewrite A1 in C1. injection C1 as <- <-. unfold tz. rewrite (leaf_node _ _ _ _ _ C2). exact C4.
    - pose proof (ps_inc _ _ _ _ A2) as I. apply increasing_incr in I. rewrite A3.
      destruct (map time (samples (tz tl))) as [|b k'] eqn:EM; [congruence|]. destruct (incr_bounds E b k' I) as [_ B]. rewrite Forall_forall in B.
      specialize (B _ IE). apply Qcle_antisym; auto. }
  split; [|split; [reflexivity|exact EN]].
  apply (psig_step _ s e); [|intros a u L H|exact H1|exact EN].
  - change (fun u : Qc => atom_op op (pval l u) (pval r u)) with (pdiff l op r) in S. destruct R. cbn [samples beginTime] in *. rewrite S in *. constructor; auto.
  - unfold pdiff. rewrite (pval_stepwise l Xl a u L H), (pval_stepwise r Xr a u L H). reflexivity.
Qed.
End Held.
