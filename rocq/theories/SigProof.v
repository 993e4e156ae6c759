(** Recording of samples: appendSample. *)
From Coq Require Import List QArith Qcanon Bool Lia.
From Verif Require Import Num Base Signal QcTac Spec Robust Repr AndProof NegProof SimplifyProof Lip BoolOps Closed.
Import ListNotations.
Local Open Scope Qc_scope.

Definition tv (p : smp) : Qc * Qc := (time p, value p).

(** The samples holding given points. *)
Fixpoint lin_samples (l : list (Qc * Qc)) : list smp :=
  match l with
  | nil => nil
  | p :: nil => [mkS (fst p) (snd p) 0]
  | p :: ((q :: _) as l') => mkS (fst p) (snd p) ((snd q - snd p) / (fst q - fst p)) :: lin_samples l'
  end.
Definition prev_samples (l : list (Qc * Qc)) : list smp := map (fun p => mkS (fst p) (snd p) 0) l.
Definition rec_samples (ip : interpol) := match ip with LINEAR => lin_samples | PREVIOUS => prev_samples end.

Lemma tv_lin : forall l, map tv (lin_samples l) = l.
Proof.
  induction l as [|[t v] l IH]; [reflexivity|]. destruct l as [|q l]; [reflexivity|].
  change (map tv (lin_samples ((t, v) :: q :: l))) with ((t, v) :: map tv (lin_samples (q :: l))).
  rewrite IH. reflexivity.
Qed.
Lemma tv_prev : forall l, map tv (prev_samples l) = l.
Proof. intros l. unfold prev_samples. rewrite map_map. rewrite map_ext with (g := fun p => p); [apply map_id|]. intros []; reflexivity. Qed.
Lemma tv_rec : forall ip l, map tv (rec_samples ip l) = l.
Proof. intros [|] l; [apply tv_prev|apply tv_lin]. Qed.

Lemma rec_back : forall ip l t v, exists d, exists r, rec_samples ip (l ++ [(t, v)]) = r ++ [mkS t v d] /\ d = 0.
Proof.
  intros [|] l t v; cbn [rec_samples].
  - exists 0, (prev_samples l). unfold prev_samples. rewrite map_app. auto.
  - exists 0. induction l as [|p l IH].
    + exists []. auto.
    + destruct IH as (r & E & _). destruct l as [|q l]; cbn [app] in *.
      * eexists [_]. split; reflexivity.
      * cbn [lin_samples] in *. eexists (_ :: r). rewrite E. split; reflexivity.
Qed.

Lemma rec_snoc : forall l s w t v, 
  lin_samples (l ++ [(s, w); (t, v)]) =
  set_back_deriv (lin_samples (l ++ [(s, w)])) ((v - w) / (t - s)) ++ [mkS t v 0].
Proof.
  induction l as [|p l IH]; intros s w t v; [reflexivity|].
  specialize (IH s w t v). cbn [app].
  destruct l as [|q l].
  - cbn [app lin_samples set_back_deriv fst snd]. reflexivity.
  - cbn [app] in *.
    change (lin_samples (p :: q :: l ++ [(s, w); (t, v)])) with
      (mkS (fst p) (snd p) ((snd q - snd p) / (fst q - fst p)) :: lin_samples (q :: l ++ [(s, w); (t, v)])).
    rewrite IH.
    change (lin_samples (p :: q :: l ++ [(s, w)])) with
      (mkS (fst p) (snd p) ((snd q - snd p) / (fst q - fst p)) :: lin_samples (q :: l ++ [(s, w)])).
    remember (lin_samples (q :: l ++ [(s, w)])) as L. destruct L as [|a L].
    { destruct (l ++ [(s, w)]) eqn:E; [destruct l; discriminate|]. cbn in HeqL. discriminate. }
    reflexivity.
Qed.

Lemma append_same : forall ip x t v, samples x <> [] -> t <= endTime x ->
  appendSample ip x t v = Ok x.
Proof.
  intros ip x t v N H. unfold appendSample, appendSample3.
  apply nleb_true in H. rewrite H. destruct (samples x); [congruence|]. reflexivity.
Qed.

Lemma append_step : forall ip l s w t v b, s < t ->
  appendSample ip (mkSig (rec_samples ip (l ++ [(s, w)])) b s) t v =
  Ok (mkSig (rec_samples ip (l ++ [(s, w); (t, v)])) b t).
Proof.
  intros ip l s w t v b H. unfold appendSample, appendSample3. cbn [endTime samples].
  assert (B : nleb t s = false) by (apply nleb_false; auto). rewrite B. cbn [andb].
  destruct (rec_back ip l s w) as (d & r & E & ->). destruct ip; cbn [rec_samples] in *.
  - destruct (prev_samples (l ++ [(s, w)])) eqn:E2; [destruct r; discriminate|]. rewrite <- E2.
    unfold prev_samples. rewrite !map_app, <- app_assoc. reflexivity.
  - rewrite rec_snoc. destruct (lin_samples (l ++ [(s, w)])) eqn:E2; [destruct r; discriminate|].
    rewrite E, back_app. cbn [bind value time].
    rewrite ndiv_some; [reflexivity|]. intro C. change (t - s = 0) in C. qlra.
Qed.

Lemma append_first : forall ip x t v, samples x = [] ->
  appendSample ip x t v = Ok (mkSig (rec_samples ip [(t, v)]) t t).
Proof.
  intros ip x t v E. unfold appendSample, appendSample3. rewrite E, andb_false_r.
  destruct ip; reflexivity.
Qed.

Lemma append_all_snoc : forall ip l pre s w b,
  exists x, append_all ip (mkSig (rec_samples ip (pre ++ [(s, w)])) b s) l = Ok x /\
    samples x = rec_samples ip (pre ++ (s, w) :: accepted (Some s) l) /\ beginTime x = b /\
    (exists r, last (map fst ((s, w) :: accepted (Some s) l)) 0 = endTime x /\ r = tt).
Proof.
  intros ip. induction l as [|[t v] l IH]; intros pre s w b.
  - cbn. eexists. split; [reflexivity|]. cbn. repeat split; auto. exists tt. auto.
  - cbn [append_all accepted]. destruct (Qclt_le_dec s t) as [L|L].
    + rewrite append_step by auto. cbn [bind].
      destruct (IH (pre ++ [(s, w)]) t v b) as (x & E1 & E2 & E3 & r & E4 & _).
      rewrite <- app_assoc in E1, E2. exists x. split; [exact E1|]. split; [exact E2|]. split; [exact E3|].
      exists tt. split; auto.
    + rewrite append_same; cbn [samples endTime bind]; auto.
      destruct (rec_back ip pre s w) as (d & r & E & _). rewrite E. destruct r; discriminate.
Qed.

Lemma append_all_ok : forall ip l, exists x, append_all ip empty_signal l = Ok x /\
  samples x = rec_samples ip (accepted None l) /\
  (l <> [] -> hd_error (accepted None l) <> None /\
    beginTime x = hd 0 (map fst (accepted None l)) /\ endTime x = last (map fst (accepted None l)) 0).
Proof.
  intros ip [|[t v] l].
  - eexists. split; [reflexivity|]. split; [destruct ip; reflexivity|congruence].
  - cbn [append_all accepted]. rewrite append_first by reflexivity. cbn [bind].
    destruct (append_all_snoc ip l [] t v t) as (x & E1 & E2 & E3 & _ & E4 & _).
    exists x. split; [exact E1|]. split; [exact E2|]. intros _. split; [discriminate|]. split; [exact E3|auto].
Qed.

Lemma accepted_rising : forall l o, rising (accepted o l) /\
  match o with Some s => Forall (fun q => s < fst q) (accepted o l) | None => True end.
Proof.
  induction l as [|[t v] l IH]; intros o; cbn [accepted].
  - destruct o; split; cbn; auto.
  - destruct o as [s|].
    + destruct (Qclt_le_dec s t) as [L|L].
      * destruct (IH (Some t)) as [A B]. split.
        -- split; auto.
        -- constructor; auto. eapply Forall_impl; [|exact B]. intros; cbn in *; qlra.
      * apply (IH (Some s)).
    + destruct (IH (Some t)) as [A B]. split; auto. split; auto.
Qed.

Lemma increasing_tv : forall l, increasing l <-> rising (map tv l).
Proof.
  induction l as [|p l IH]; [reflexivity|]. cbn [increasing map rising]. rewrite IH, Forall_map. reflexivity.
Qed.

Lemma rec_increasing : forall ip l, rising l -> increasing (rec_samples ip l).
Proof. intros ip l H. apply increasing_tv. rewrite tv_rec. auto. Qed.

Lemma rising_app : forall l1 l2, rising (l1 ++ l2) -> rising l1 /\ rising l2 /\
  forall p q, In p l1 -> In q l2 -> fst p < fst q.
Proof.
  induction l1 as [|a l1 IH]; intros l2; cbn [app rising]; [intros H; repeat split; auto; intros p q []|].
  intros [F R]. destruct (IH l2 R) as (A & B & C). rewrite Forall_app in F. destruct F as [F1 F2].
  repeat split; auto. intros p q [<-|I] J; auto. rewrite Forall_forall in F2. auto.
Qed.

Lemma lin_samples_app : forall l1 p l2, exists r, lin_samples (l1 ++ p :: l2) = r ++ lin_samples (p :: l2).
Proof.
  induction l1 as [|a l1 IH]; intros p l2; [exists []; auto|].
  destruct (IH p l2) as (r & E). cbn [app]. destruct (l1 ++ p :: l2) as [|b l] eqn:E'; [destruct l1; discriminate|].
  exists (mkS (fst a) (snd a) ((snd b - snd a) / (fst b - fst a)) :: r).
  change (lin_samples (a :: b :: l)) with (mkS (fst a) (snd a) ((snd b - snd a) / (fst b - fst a)) :: lin_samples (b :: l)).
  rewrite E. reflexivity.
Qed.

Lemma lin_cont : forall l, rising l -> continuous (lin_samples l).
Proof.
  induction l as [|p l IH]; intros R; [exact I|]. destruct l as [|q l]; [exact I|].
  destruct R as [F R]. specialize (IH R). inversion F as [|? ? F1 F2]; subst.
  assert (K : exists d L, lin_samples (q :: l) = mkS (fst q) (snd q) d :: L) by (destruct l; do 2 eexists; reflexivity).
  destruct K as (d' & L & E).
  change (lin_samples (p :: q :: l)) with (mkS (fst p) (snd p) ((snd q - snd p) / (fst q - fst p)) :: lin_samples (q :: l)).
  rewrite E in *. split; [|exact IH]. unfold line. cbn [time value deriv].
  rewrite Qc_div_mul; [ring|]. intro; qlra.
Qed.

Lemma lin_ordered : forall l, rising l -> ordered (lin_samples l).
Proof. intros l R. apply increasing_ordered. apply (rec_increasing LINEAR). auto. Qed.

(** Interpolated values. *)
Lemma lin_eval : forall l t v, rising l -> linear l t v ->
  (exists t0, hd_error (map fst l) = Some t0 /\ t0 <= t) -> eval (lin_samples l) t = Some v.
Proof.
  intros l t v R L (t0 & H0 & H1). destruct L as [t1 v1 l2 E H | l1 t1 v1 t2 v2 l2 E H2 H3 | l1 t1 v1 E H].
  - subst l. cbn in H0. inversion H0; subst t0. assert (t = t1) by qlra. subst t1.
    pose proof (lin_cont _ R) as C. pose proof (lin_ordered _ R) as O.
    assert (K : exists d L, lin_samples ((t, v1) :: l2) = mkS t v1 d :: L) by (destruct l2; do 2 eexists; reflexivity).
    destruct K as (d & L & E). rewrite E in *. exact (cont_eval_front _ _ O C).
  - subst l. destruct (lin_samples_app l1 (t1, v1) ((t2, v2) :: l2)) as (r & E). rewrite E.
    pose proof (lin_cont _ R) as C. pose proof (lin_ordered _ R) as O. rewrite E in C, O.
    change (lin_samples ((t1, v1) :: (t2, v2) :: l2)) with (mkS t1 v1 ((v2 - v1) / (t2 - t1)) :: lin_samples ((t2, v2) :: l2)) in *.
    rewrite eval_app.
    assert (K : exists d L, lin_samples ((t2, v2) :: l2) = mkS t2 v2 d :: L) by (destruct l2; do 2 eexists; reflexivity).
    destruct K as (d & L & K). rewrite K in *.
    apply cont_app_r in C. apply ordered_app in O. destruct O as (_ & O & _).
    destruct (rising_app _ _ R) as (_ & R2 & _). cbn [rising] in R2. destruct R2 as [R2 _]. inversion R2 as [|? ? R3 R4]; subst. cbn [fst] in R3.
    destruct (Qcle_lt_or_eq _ _ H3) as [Lt| ->].
    + rewrite eval_cons_all; [reflexivity| |exact H2].
      destruct O as (_ & O & _). constructor; [exact Lt|]. eapply Forall_lt_le; [exact O|exact Lt].
    + rewrite eval_cons_some with (v := v2).
      * f_equal. rewrite Qc_div_mul; [ring|]. intro; qlra.
      * apply (cont_eval_front L (mkS t2 v2 d)); [apply O|apply C].
  - subst l. destruct (lin_samples_app l1 (t1, v1) []) as (r & E). rewrite E. cbn [lin_samples fst snd].
    rewrite eval_back by auto. f_equal. unfold line. cbn. ring.
Qed.

Lemma prev_eval : forall l t v, previous l t v -> eval (prev_samples l) t = Some v.
Proof.
  intros l t v [l1 t1 v1 l2 E H F]. subst l. unfold prev_samples. rewrite map_app. cbn [map fst snd].
  rewrite eval_app, eval_cons_all; auto.
  - f_equal. unfold line. cbn. ring.
  - rewrite Forall_map. exact F.
Qed.

(** Interpolation is defined everywhere and unique. *)
Lemma linear_total : forall l t, l <> [] -> exists v, linear l t v.
Proof.
  intros l t N. destruct l as [|[t1 v1] l]; [congruence|].
  destruct (Qclt_le_dec t t1) as [C|C]; [exists v1; eapply lin_first; [reflexivity|qlra]|].
  assert (G : forall l l1 t1 v1, t1 <= t -> exists v, linear (l1 ++ (t1, v1) :: l) t v).
  { clear. induction l as [|[t2 v2] l IH]; intros l1 t1 v1 C.
    - exists v1. eapply lin_last; eauto.
    - destruct (Qclt_le_dec t t2) as [D|D].
      + eexists. eapply lin_seg; [reflexivity|auto|qlra].
      + replace (l1 ++ (t1, v1) :: (t2, v2) :: l) with ((l1 ++ [(t1, v1)]) ++ (t2, v2) :: l) by (rewrite <- app_assoc; reflexivity).
        apply IH. auto. }
  apply (G l [] t1 v1 C).
Qed.

Lemma linear_unique : forall l t v w, rising l -> linear l t v -> linear l t w -> v = w.
Proof.
  intros l t v w R L1 L2.
  destruct l as [|[t0 v0] l].
  { destruct L1 as [? ? ? E|? ? ? ? ? ? E|? ? ? E]; try discriminate; destruct l1; discriminate. }
  destruct (Qclt_le_dec t t0) as [C|C].
  - assert (G : forall v, linear ((t0, v0) :: l) t v -> v = v0).
    { clear - R C. intros v L. destruct L as [t1 v1 l2 E H | l1 t1 v1 t2 v2 l2 E H2 H3 | l1 t1 v1 E H].
      - inversion E; auto.
      - exfalso. rewrite E in R. destruct l1 as [|a l1]; cbn in E; inversion E; subst; [qlra|].
        destruct (rising_app ((t0, v0) :: l1) _ R) as (_ & _ & K).
        specialize (K (t0, v0) (t1, v1) (or_introl eq_refl) (or_introl eq_refl)). cbn in K. qlra.
      - exfalso. rewrite E in R. destruct l1 as [|a l1]; cbn in E; inversion E; subst; [qlra|].
        destruct (rising_app ((t0, v0) :: l1) _ R) as (_ & _ & K).
        specialize (K (t0, v0) (t1, v1) (or_introl eq_refl) (or_introl eq_refl)). cbn in K. qlra. }
    rewrite (G v), (G w); auto.
  - apply (lin_eval _ _ _ R) in L1; [|exists t0; auto]. apply (lin_eval _ _ _ R) in L2; [|exists t0; auto]. congruence.
Qed.
