(** Step signals: constant between samples.  The points scanned by plateauMax and
    what it computes from them. *)
From Coq Require Import List QArith Qcanon Bool Lia.
From Verif Require Import Num Base Signal QcTac Spec Robust Repr AndProof NegProof SimplifyProof Lip BoolOps Closed SigProof ResizeProof EvProof PlateauProof StepPlateau.
Import ListNotations.
Local Open Scope Qc_scope.

Definition flat (l : list smp) : Prop := Forall (fun q => deriv q = 0) l.

Lemma line_flat : forall (p : smp) u, deriv p = 0 -> line p u = value p.
Proof. intros p u H. unfold line. rewrite H. ring. Qed.

(** [x] holds the values of [f] on its domain. *)
Record step (x : signal Qc) (f : Qc -> Qc) : Prop := {
  st_inc : increasing (samples x);
  st_flat : flat (samples x);
  st_front : exists p l, samples x = p :: l /\ time p = beginTime x;
  st_end : Forall (fun q => time q <= endTime x) (samples x);
  st_eval : forall u, beginTime x <= u -> u <= endTime x -> eval (samples x) u = Some (f u)
}.

Lemma eval_skip : forall p q l u, time q <= u -> eval (p :: q :: l) u = eval (q :: l) u.
Proof.
  intros p q l u H. destruct (eval_some q l u H) as (v & E). rewrite E. apply eval_cons_some. auto.
Qed.

Lemma eval_at : forall l1 p l2, increasing (l1 ++ p :: l2) -> eval (l1 ++ p :: l2) (time p) = Some (value p).
Proof.
  intros l1 p l2 I. rewrite eval_app.
  assert (K : eval (p :: l2) (time p) = Some (value p)).
  { rewrite eval_cons_all; [rewrite line_at; auto| |qlra].
    clear - I. induction l1 as [|q l1 IH]; cbn in I; [apply I|apply IH; apply I]. }
  rewrite K. auto.
Qed.

Lemma inc_app : forall l1 l2, increasing (l1 ++ l2) <->
  increasing l1 /\ increasing l2 /\ (forall p q, In p l1 -> In q l2 -> time p < time q).
Proof.
  induction l1 as [|x l1 IH]; intros l2; cbn [app increasing].
  - split; [intros H; split; [exact I|split; [auto|intros p q []]] | intros (_ & H & _); auto].
  - rewrite IH, Forall_app. split.
    + intros ((F1 & F2) & O1 & O2 & H). split; [auto|]. split; [auto|].
      intros p q [<-|I] J; auto. rewrite Forall_forall in F2. auto.
    + intros ((F1 & O1) & O2 & H). split; [split; [auto|]|auto].
      * rewrite Forall_forall. intros q J. apply H; cbn; auto.
      * split; [auto|]. split; [auto|]. intros p q Ip. apply H. cbn. auto.
Qed.

Lemma step_value : forall x f, step x f -> forall p, In p (samples x) -> value p = f (time p).
Proof.
  intros x f [I Z (p0 & l & E & T) En Ev] p J.
  assert (B : beginTime x <= time p).
  { rewrite E in J, I. destruct J as [<-|J]; [qlra|]. destruct I as [I _]. rewrite Forall_forall in I.
    specialize (I p J). qlra. }
  rewrite Forall_forall in En. specialize (Ev (time p) B (En p J)).
  apply in_split in J. destruct J as (l1 & l2 & J). rewrite J in I, Ev. rewrite (eval_at _ _ _ I) in Ev. congruence.
Qed.

(** The points after the first. *)
Fixpoint spts (v : Qc) (p : smp) (l : list smp) (e : Qc) : list pt :=
  match l with
  | nil => [(e, qmax v (value p))]
  | q :: l' => (time q, qmax (value q) (value p)) :: spts v q l' e
  end.

Lemma spts_snoc : forall v q l p e, spts v p (l ++ [q]) e = spts (value q) p l (time q) ++ [(e, qmax v (value q))].
Proof.
  intros v q l. induction l as [|r l IH]; intros p e; cbn [spts app]; auto. rewrite IH. reflexivity.
Qed.

Lemma pre_step : forall l p t v y0, flat (p :: l) ->
  plateau_max_pre (rev (p :: l)) t v y0 = spts v p l t ++ y0.
Proof.
  intros l. induction l as [|q l IH] using rev_ind; intros p t v y0 F.
  - cbn [rev app plateau_max_pre spts]. rewrite fmax_q. vline. rewrite line_flat; auto. apply Forall_inv in F. auto.
  - rewrite app_comm_cons, rev_app_distr. cbn [rev app]. cbn [plateau_max_pre].
    change (rev l ++ [p]) with (rev (p :: l)).
    rewrite app_comm_cons in F. unfold flat in F. rewrite Forall_app in F. destruct F as [F1 F2].
    rewrite IH by auto. rewrite spts_snoc, <- app_assoc. cbn [app]. rewrite fmax_q. vline.
    rewrite line_flat; auto. apply Forall_inv in F2. auto.
Qed.

Fixpoint tied (e : Qc) (y : list pt) : Prop :=
  match y with
  | nil => True
  | p :: y' => Forall (fun q => fst q = fst p -> fst p = e /\ snd q <= snd p) y' /\ tied e y'
  end.

Lemma tied_at : forall e A y p B q, tied e y -> y = A ++ p :: B -> In q B -> fst q = fst p -> fst p = e /\ snd q <= snd p.
Proof.
  intros e A. induction A as [|x A IH]; intros y p B q T E J F; subst y; cbn [app tied] in T.
  - destruct T as [T _]. rewrite Forall_forall in T. auto.
  - apply (IH (A ++ p :: B) p B q); auto. apply T.
Qed.

Section Points.
Variables (M e : Qc).

Lemma spts_ok : forall l p, increasing (p :: l) -> Forall (fun q => time q <= e) (p :: l) ->
  Forall (fun q => - M <= value q) (p :: l) ->
  let y := spts (- M) p l e in
  Forall (fun q => time p <= fst q /\ fst q <= e /\ - M <= snd q /\ (fst q = time p -> time p = e /\ snd q = value p)) y /\
  psorted y /\ tied e y.
Proof.
  induction l as [|q l IH]; intros p I E V; cbn [spts].
  - pose proof (Forall_inv E) as E1. pose proof (Forall_inv V) as V1. cbn in E1, V1.
    split; [constructor; [|constructor]|cbn; auto]. cbn [fst snd]. rewrite qmax_r by auto.
    split; [auto|]. split; [qlra|]. split; [auto|]. auto.
  - destruct I as [I1 I2]. inversion E as [|? ? E1 E2]; inversion V as [|? ? V1 V2]; subst.
    destruct (IH q I2 E2 V2) as (H1 & H2 & H3). pose proof (Forall_inv I1) as I3. cbn in I3.
    pose proof (Forall_inv E2) as E3. pose proof (Forall_inv V2) as V3. cbn in E3, V3.
    split; [|split].
    + constructor.
      * cbn [fst snd]. split; [qlra|]. split; [auto|]. split; [|intros K; exfalso; qlra].
        destruct (qmax_cases (value q) (value p)) as [[-> ?]|[-> ?]]; auto.
      * eapply Forall_impl; [|exact H1]. intros r (R1 & R2 & R3 & R4). cbn beta. split; [qlra|].
        split; [auto|]. split; [auto|]. intros K. exfalso. qlra.
    + split; auto. eapply Forall_impl; [|exact H1]. intros r (R1 & _). exact R1.
    + split; auto. eapply Forall_impl; [|exact H1]. intros r (R1 & R2 & R3 & R4) K. cbn [fst snd] in *.
      destruct (R4 K) as [K1 K2]. split; auto. rewrite K2.
      destruct (qmax_cases (value q) (value p)) as [[-> ?]|[-> ?]]; qlra.
Qed.

(** Every point is a value taken shortly before it. *)
Lemma spts_taken : forall l p f, increasing (p :: l) -> flat (p :: l) -> Forall (fun q => time q <= e) (p :: l) ->
  Forall (fun q => - M <= value q) (p :: l) ->
  (forall u, time p <= u -> u <= e -> eval (p :: l) u = Some (f u)) ->
  forall t v u, In (t, v) (spts (- M) p l e) -> time p <= u -> u < t ->
    exists s, u <= s /\ s <= t /\ f s = v.
Proof.
  induction l as [|q l IH]; intros p f I Z E V Ev t v u J U1 U2; cbn [spts] in J.
  - destruct J as [J|[]]. inversion J; subst t v. apply Forall_inv in V. rewrite qmax_r by auto.
    exists u. split; [qlra|]. split; [qlra|]. specialize (Ev u U1 ltac:(qlra)).
    rewrite eval_cons_all in Ev; auto. rewrite line_flat in Ev; [congruence|]. apply Forall_inv in Z. auto.
  - destruct I as [I1 I2]. inversion Z as [|? ? Z1 Z2]; inversion E as [|? ? E1 E2]; inversion V as [|? ? V1 V2]; subst.
    pose proof (Forall_inv I1) as I3. pose proof (Forall_inv E2) as E3. cbn in I3, E3.
    assert (Ev2 : forall u, time q <= u -> u <= e -> eval (q :: l) u = Some (f u)).
    { intros u' W1 W2. rewrite <- Ev by qlra. rewrite eval_skip; auto. }
    destruct J as [J|J].
    + inversion J; subst t v. destruct (qmax_cases (value q) (value p)) as [[-> ?]|[-> ?]].
      * exists (time q). split; [qlra|]. split; [qlra|]. specialize (Ev2 (time q) ltac:(qlra) E3).
        pose proof (eval_at [] q l I2) as A0; cbn [app] in A0; rewrite A0 in Ev2. congruence.
      * exists u. split; [qlra|]. split; [qlra|]. specialize (Ev u U1 ltac:(qlra)).
        rewrite eval_cons_all in Ev; auto; [rewrite line_flat in Ev; [congruence|auto]|].
        constructor; auto. destruct I2 as [I2 _]. eapply Forall_impl; [|exact I2]. intros r Hr. cbn in Hr. qlra.
    + destruct (spts_ok l q I2 E2 V2) as (H1 & _). rewrite Forall_forall in H1. specialize (H1 _ J). cbn in H1.
      destruct (Qclt_le_dec u (time q)) as [C|C].
      * destruct (Qclt_le_dec (time q) t) as [D|D].
        -- destruct (IH q f I2 Z2 E2 V2 Ev2 t v (time q) J ltac:(qlra) D) as (s & S1 & S2 & S3).
           exists s. split; [qlra|]. auto.
        -- assert (K : t = time q) by (destruct H1; qlra). destruct H1 as (_ & _ & _ & H1). destruct (H1 K) as [K1 K2].
           exists (time q). split; [qlra|]. split; [qlra|]. specialize (Ev2 (time q) ltac:(qlra) E3).
           pose proof (eval_at [] q l I2) as A0; cbn [app] in A0; rewrite A0 in Ev2. congruence.
      * apply (IH q f); auto.
Qed.

(** A later value is the present one or bounded by a point in between. *)
Lemma spts_cover : forall l p f, increasing (p :: l) -> flat (p :: l) -> Forall (fun q => time q <= e) (p :: l) ->
  (forall u, time p <= u -> u <= e -> eval (p :: l) u = Some (f u)) ->
  forall u s, time p <= u -> u <= s -> s <= e ->
    f s = f u \/ exists t v, In (t, v) (spts (- M) p l e) /\ u < t /\ t <= s /\ f s <= v.
Proof.
  induction l as [|q l IH]; intros p f I Z E Ev u s U1 U2 U3.
  - left. pose proof (Ev u U1 ltac:(qlra)) as A. pose proof (Ev s ltac:(qlra) U3) as B. apply Forall_inv in Z.
    rewrite eval_cons_all in A by (auto; qlra). rewrite eval_cons_all in B by (auto; qlra). rewrite line_flat in A, B by auto. congruence.
  - destruct I as [I1 I2]. inversion Z as [|? ? Z1 Z2]; inversion E as [|? ? E1 E2]; subst.
    pose proof (Forall_inv I1) as I3. pose proof (Forall_inv E2) as E3. cbn in I3, E3.
    assert (Ev2 : forall u, time q <= u -> u <= e -> eval (q :: l) u = Some (f u)).
    { intros u' W1 W2. rewrite <- Ev by qlra. rewrite eval_skip; auto. }
    assert (K : forall u', time p <= u' -> u' < time q -> f u' = value p).
    { intros u' W1 W2. specialize (Ev u' W1 ltac:(qlra)). rewrite eval_cons_all in Ev; auto; [rewrite line_flat in Ev; [congruence|auto]|].
      constructor; auto. destruct I2 as [I2 _]. eapply Forall_impl; [|exact I2]. intros r Hr. cbn in Hr. qlra. }
    destruct (Qclt_le_dec s (time q)) as [C|C].
    + left. rewrite !K; auto; qlra.
    + destruct (Qclt_le_dec u (time q)) as [D|D].
      * right. destruct (IH q f I2 Z2 E2 Ev2 (time q) s ltac:(qlra) C U3) as [H|(t & v & J & T1 & T2 & T3)].
        -- exists (time q), (qmax (value q) (value p)). split; [cbn; auto|]. split; [auto|]. split; [auto|].
           rewrite H. specialize (Ev2 (time q) ltac:(qlra) E3). pose proof (eval_at [] q l I2) as A0; cbn [app] in A0; rewrite A0 in Ev2.
           assert (A1 : f (time q) = value q) by congruence. rewrite A1.
           destruct (qmax_cases (value q) (value p)) as [[-> ?]|[-> ?]]; qlra.
        -- exists t, v. split; [cbn; auto|]. split; [qlra|]. auto.
      * destruct (IH q f I2 Z2 E2 Ev2 u s D U2 U3) as [H|(t & v & J & T)]; auto. right. exists t, v. cbn; auto.
Qed.

(** The value held up to the end is bounded by a point at the end. *)
Lemma spts_left : forall l p f, increasing (p :: l) -> flat (p :: l) -> Forall (fun q => time q <= e) (p :: l) ->
  (forall u, time p <= u -> u <= e -> eval (p :: l) u = Some (f u)) ->
  forall u, time p <= u -> u < e -> (forall s, u <= s -> s < e -> f s = f u) ->
    exists v, In (e, v) (spts (- M) p l e) /\ f u <= v.
Proof.
  induction l as [|q l IH]; intros p f I Z E Ev u U1 U2 H.
  - exists (qmax (- M) (value p)). split; [cbn; auto|]. pose proof (Ev u U1 ltac:(qlra)) as A. apply Forall_inv in Z.
    rewrite eval_cons_all in A by (auto; qlra). rewrite line_flat in A by auto. assert (A1 : f u = value p) by congruence. rewrite A1.
    destruct (qmax_cases (- M) (value p)) as [[-> ?]|[-> ?]]; qlra.
  - destruct I as [I1 I2]. inversion Z as [|? ? Z1 Z2]; inversion E as [|? ? E1 E2]; subst.
    pose proof (Forall_inv I1) as I3. pose proof (Forall_inv E2) as E3. cbn in I3, E3.
    assert (Ev2 : forall u, time q <= u -> u <= e -> eval (q :: l) u = Some (f u)).
    { intros u' W1 W2. rewrite <- Ev by qlra. rewrite eval_skip; auto. }
    destruct (Qclt_le_dec (time q) e) as [C|C].
    + destruct (Qclt_le_dec u (time q)) as [D|D].
      * destruct (IH q f I2 Z2 E2 Ev2 (time q) ltac:(qlra) C) as (v & J & L).
        { intros s S1 S2. rewrite !(H s), (H (time q)) by qlra. reflexivity. }
        exists v. split; [cbn; auto|]. rewrite (H (time q)) in L by qlra. auto.
      * destruct (IH q f I2 Z2 E2 Ev2 u D U2 H) as (v & J & L). exists v. split; [cbn; auto|auto].
    + assert (T : time q = e) by qlra. exists (qmax (value q) (value p)). split; [cbn; left; congruence|].
      specialize (Ev u U1 ltac:(qlra)). rewrite eval_cons_all in Ev; auto.
      * rewrite line_flat in Ev by auto. assert (A1 : f u = value p) by congruence. rewrite A1.
        destruct (qmax_cases (value q) (value p)) as [[-> ?]|[-> ?]]; qlra.
      * constructor; [qlra|]. destruct I2 as [I2 _]. eapply Forall_impl; [|exact I2]. intros r Hr. cbn in Hr. qlra.
Qed.

(** A sample at the end makes two points there. *)
Lemma spts_count : forall l p, increasing (p :: l) -> Forall (fun q => time q <= e) (p :: l) -> time p < e ->
  (exists q, In q l /\ time q = e) -> (2 <= count e (map fst (spts (- M) p l e)))%nat.
Proof.
  induction l as [|q l IH]; intros p I E P (r & J & T); [destruct J|].
  destruct I as [I1 I2]. pose proof (Forall_inv_tail E) as E2. cbn [spts map].
  destruct J as [->|J].
  - assert (L : l = []).
    { destruct l as [|x l]; auto. exfalso. destruct I2 as [I2 _]. apply Forall_inv in I2. apply Forall_inv_tail in E2.
      apply Forall_inv in E2. cbn in I2, E2. qlra. }
    subst l. cbn [spts map fst]. unfold count. cbn [filter]. rewrite T.
    assert (B : neqb e e = true) by (apply neqb_true; auto). rewrite B. cbn. lia.
  - assert (2 <= count e (map fst (spts (- M) q l e)))%nat.
    { apply IH; auto; [|eauto]. destruct I2 as [I2 _]. rewrite Forall_forall in I2. specialize (I2 r J). cbn in I2. qlra. }
    pose proof (count_cons e (time q) (map fst (spts (- M) q l e))). cbn [fst]. lia.
Qed.
End Points.

Section Srep.
Variables (g : Qc -> Qc) (b c e : Qc).

Lemma srep_le : forall z t, srep g b c e z t -> t <= e.
Proof. intros z t S. induction S; qlra. Qed.

Lemma srep_times : forall z t, srep g b c e z t -> Forall (fun q => t <= time q) z.
Proof.
  intros z t S. induction S as [|p z t t' H1 H2 H3 H4 H5 H6 S IH]; constructor; [qlra|].
  eapply Forall_impl; [|exact IH]. intros q Hq. cbn in Hq. qlra.
Qed.

Lemma srep_ordered : forall z t, srep g b c e z t -> ordered z.
Proof.
  intros z t S. induction S as [|p z t t' H1 H2 H3 H4 H5 H6 S IH]; cbn; auto. split; auto.
  eapply Forall_impl; [|exact (srep_times _ _ S)]. intros q Hq. cbn in Hq. qlra.
Qed.

Lemma srep_flat : forall z t, srep g b c e z t -> flat z.
Proof. intros z t S. induction S; constructor; auto. Qed.

Lemma srep_front : forall p z t, srep g b c e (p :: z) t -> time p = t.
Proof. intros p z t S. inversion S; auto. Qed.

Lemma srep_eval : forall z t, srep g b c e z t -> forall u, t <= u -> u < e -> eval z u = Some (g u).
Proof.
  intros z t S. induction S as [|p z t t' H1 H2 H3 H4 H5 H6 S IH]; intros u U1 U2; [exfalso; qlra|].
  destruct (Qclt_le_dec u t') as [C|C].
  - rewrite eval_cons_all; [|eapply Forall_lt_le; [eapply srep_times; eauto|auto]|qlra].
    rewrite line_flat by auto. f_equal. auto.
  - apply eval_cons_some. auto.
Qed.

Lemma srep_val : forall z t, srep g b c e z t -> forall q, In q z -> b < time q -> time q < e -> value q = g (time q).
Proof.
  intros z t S. induction S as [|p z t t' H1 H2 H3 H4 H5 H6 S IH]; intros q J B1 B2; [destruct J|].
  destruct J as [<-|J]; auto. rewrite H1 in *. auto.
Qed.

Lemma srep_dup : forall z t, srep g b c e z t -> forall A p q B, z = A ++ p :: q :: B -> b < time p -> time p < e ->
  time p < time q \/ time p = c.
Proof.
  intros z t S. induction S as [|p0 z t t' H1 H2 H3 H4 H5 H6 S IH]; intros A p q B E B1 B2; [destruct A; discriminate|].
  destruct A as [|a A]; cbn [app] in E; inversion E; subst.
  - pose proof (srep_front _ _ _ S) as K. destruct (H6 B1 B2); [left; qlra|auto].
  - eapply IH; eauto.
Qed.
End Srep.

Lemma count_in : forall c l, (1 <= count c l)%nat -> In c l.
Proof.
  intros c l. induction l as [|t l IH]; unfold count in *; cbn [filter length]; [lia|].
  intros H. destruct (neqb t c) eqn:B; [left; qb; auto|right; auto].
Qed.

Lemma count_app : forall c l1 l2, count c (l1 ++ l2) = (count c l1 + count c l2)%nat.
Proof. intros c l1 l2. unfold count. rewrite filter_app, app_length. auto. Qed.

Lemma count_0 : forall c l, Forall (fun t => t <> c) l -> count c l = 0%nat.
Proof.
  intros c l F. induction F as [|t l H F IH]; auto. unfold count in *. cbn [filter].
  destruct (neqb t c) eqn:B; auto. qb. congruence.
Qed.

Lemma count_shift : forall a e (l : list pt), count (e - a) (map (fun p => fst p - a) l) = count e (map fst l).
Proof.
  intros a e l. induction l as [|p l IH]; auto. unfold count in *. cbn [map filter].
  destruct (neqb (fst p - a) (e - a)) eqn:B1; destruct (neqb (fst p) e) eqn:B2; qb; cbn [length]; auto; exfalso.
  - apply B2. replace (fst p) with (fst p - a + a) by ring. rewrite B1. ring.
  - apply B1. rewrite B2. auto.
Qed.

Lemma plateau_step : forall M f x a, step x f -> 0 < a -> beginTime x + a <= endTime x ->
  (forall u, beginTime x <= u -> u <= endTime x -> - M <= f u) ->
  let b := beginTime x in let e := endTime x in let c := e - a in
  exists y z l1 l2, plateauMax M x a = Ok z /\ beginTime z = b /\ endTime z = e /\
    samples z = l1 ++ l2 /\ Forall (fun q => time q < e) l1 /\ Forall (fun q => e <= time q) l2 /\
    ordered (samples z) /\ flat (samples z) /\ (exists p l, l1 = p :: l /\ time p = b) /\
    (forall u, b <= u -> u < e -> eval l1 u = Some (wmax M a y u)) /\
    (forall q, In q l1 -> b < time q -> value q = wmax M a y (time q)) /\
    (forall A p q B, l1 = A ++ p :: q :: B -> b < time p -> time p < time q \/ time p = c) /\
    (exists q, In q l1 /\ time q = c) /\
    ((exists q, In q (samples x) /\ time q = e) -> (2 <= count c (map (@time Qc) l1))%nat) /\
    (forall t v u, In (t, v) y -> b <= u -> u < t -> t <= e /\ exists s, u <= s /\ s <= t /\ f s = v) /\
    (forall u s, b <= u -> u <= s -> s <= e -> f s = f u \/ exists t v, In (t, v) y /\ u < t /\ t <= s /\ f s <= v) /\
    (exists v, In (e, v) y /\ f e <= v) /\
    (forall u, b <= u -> u < e -> (forall s, u <= s -> s < e -> f s = f u) -> exists v, In (e, v) y /\ f u <= v).
Proof.
  intros M f x a Sx Ha Hae HM b e c. pose proof Sx as [I Z (f0 & l & Es & Tf) En Ev].
  assert (V : Forall (fun q => - M <= value q) (samples x)).
  { rewrite Forall_forall. intros q J. rewrite (step_value _ _ Sx q J).
    rewrite Forall_forall in En. apply HM; auto. rewrite Es in J, I. destruct J as [<-|J]; [qlra|].
    destruct I as [I _]. rewrite Forall_forall in I. specialize (I q J). qlra. }
  unfold plateauMax. rewrite Es in *. cbn [deref bind].
  rewrite pre_step by auto. rewrite app_nil_r. change (BOTTOM M) with (- M).
  fold b e in En, Ev, Tf, HM, Hae |- *.
  set (y := (time f0, value f0) :: spts (- M) f0 l e).
  destruct (spts_ok M e l f0 I En V) as (Y1 & Y2 & Y3).
  assert (Sy : psorted y).
  { split; auto. eapply Forall_impl; [|exact Y1]. intros q (Q & _). exact Q. }
  assert (Ey : Forall (fun q => fst q <= e) y).
  { constructor; [cbn; qlra|]. eapply Forall_impl; [|exact Y1]. intros q (_ & Q & _). exact Q. }
  assert (My : Forall (fun q => - M <= snd q) y).
  { constructor; [cbn; apply Forall_inv in V; auto|]. eapply Forall_impl; [|exact Y1]. intros q (_ & _ & Q & _). exact Q. }
  assert (Ty : tied e y).
  { split; auto. eapply Forall_impl; [|exact Y1]. intros q (_ & _ & _ & Q) K. cbn in K. destruct (Q K). exfalso. qlra. }
  assert (Ie : exists v, In (e, v) (spts (- M) f0 l e) /\ f e <= v).
  { assert (Le : exists p r, f0 :: l = r ++ [p]) by (destruct (exists_last (l := f0 :: l)) as (r & p & K); [discriminate|eauto]).
    destruct Le as (p & r & K). exists (qmax (- M) (value p)). split.
    - destruct r as [|p' r]; cbn [app] in K; inversion K; subst; [cbn; auto|].
      rewrite spts_snoc. apply in_or_app. right. cbn. auto.
    - assert (Ep : eval (f0 :: l) e = Some (value p)).
      { rewrite K. rewrite eval_back. - rewrite line_flat; auto. rewrite K in Z. unfold flat in Z. rewrite Forall_app in Z. destruct Z as [_ Z]. apply Forall_inv in Z. auto.
        - rewrite K in En. rewrite Forall_app in En. destruct En as [_ En]. apply Forall_inv in En. auto. }
      assert (Ep' : f e = value p) by (rewrite Ev in Ep by qlra; congruence). rewrite Ep'.
      destruct (qmax_cases (- M) (value p)) as [[-> ?]|[-> ?]]; qlra. }
  destruct Ie as (ve & Ie & Hve).
  change (nadd b a) with (b + a).
  assert (Ha' : 0 <= a) by qlra.
  destruct (init_ok a b y Ha' Sy y [] []) as (C & Mq & i & E1 & E2 & E3 & E4 & E5 & E6 & E7 & p & i' & -> & E8); auto.
  { cbn. auto. }
  { intros q []. }
  { intros q []. }
  { exists (e, ve). split; [cbn; auto|cbn; qlra]. }
  rewrite E1. cbn [bind deref].
  assert (L : (length y = length C + S (length i'))%nat) by (rewrite E2, app_length; reflexivity).
  destruct (step_loop M a b e y Ha Sy Ey My) with (fuel := (2 * length y + 2)%nat) (C := C) (Mq := Mq) (i := p :: i')
    (t := b) (nc := neqb (fst p) (b + a)) (ec := false) (z := @nil smp) as (zs & K1 & K2 & K3 & K5); auto.
  { intros A p0 B q. apply tied_at; auto. }
  { constructor; auto.
    - eapply Forall_impl; [|exact E3]. intros q Hq. cbn in Hq. qlra.
    - assert (Sp : psorted (p :: i')) by (rewrite E2 in Sy; apply psorted_app in Sy; apply Sy).
      destruct Sp as [Sp _]. constructor; auto. eapply Forall_impl; [|exact Sp]. intros q Hq. cbn in Hq. qlra.
    - rewrite Forall_forall. intros q J. apply E5 in J.
      assert (J' : In q y) by (rewrite E2; apply in_or_app; auto).
      destruct J' as [<-|J']; [cbn; qlra|]. rewrite Forall_forall in Y1. destruct (Y1 q J'). qlra.
    - intros B. qb. eauto.
    - discriminate.
    - qlra. }
  { intros p0 i0 K T. inversion K; subst. apply neqb_true. auto. }
  { intros m M' B. exfalso. qlra. }
  { unfold mu. cbn [length]. destruct (neqb _ _ || false); lia. }
  rewrite K1. cbn [app bind].
  pose proof (srep_ordered _ _ _ _ _ _ K3) as Oz.
  destruct (split_lt e zs Oz) as (l1 & l2 & Z1 & Z2 & Z3).
  assert (N1 : l1 <> []).
  { intros ->. cbn in Z1. subst l2. destruct zs as [|q zs]; [congruence|].
    pose proof (srep_front _ _ _ _ _ _ _ K3). apply Forall_inv in Z3. qlra. }
  destruct (drop_last_split e l1 l2) as (l2' & D1 & D2); auto.
  assert (Sub : forall q, In q l2' -> In q l2).
  { unfold drop_last_at in D1. destruct (rev (l1 ++ l2)) as [|bk r] eqn:Er; [discriminate|].
    assert (K : l1 ++ l2 = rev r ++ [bk]) by (rewrite <- (rev_involutive (l1 ++ l2)), Er; reflexivity).
    destruct (neqb (time bk) e) eqn:Bk; inversion D1 as [D1'].
    - intros q J. assert (Jr : In q (l1 ++ l2)) by (rewrite K, D1'; apply in_or_app; left; apply in_or_app; auto).
      apply in_app_or in Jr. destruct Jr as [Jr|Jr]; auto. exfalso. rewrite Forall_forall in Z2, D2.
      specialize (Z2 q Jr). specialize (D2 q J). cbn in Z2, D2. qlra.
    - apply app_inv_head in D1'. subst l2'. auto. }
  rewrite Z1, D1. cbn [bind]. exists y, (mkSig (l1 ++ l2') b e), l1, l2'. cbn [samples beginTime endTime].
  pose proof (srep_flat _ _ _ _ _ _ K3) as Fz. rewrite Z1 in K3, K5, Oz, Fz.
  assert (El : forall u, b <= u -> u < e -> eval l1 u = Some (wmax M a y u)).
  { intros u U1 U2. pose proof (srep_eval _ _ _ _ _ _ K3 u U1 U2) as K. rewrite eval_app in K.
    assert (N : eval l2 u = None) by (apply eval_none; eapply Forall_lt_le; eauto). rewrite N in K. auto. }
  assert (Ci : count e (map fst (p :: i')) = count e (map fst y)).
  { rewrite E2, map_app, count_app, (count_0 e (map fst C)); auto. rewrite Forall_map.
    eapply Forall_impl; [|exact E3]. intros q Hq K. cbn in Hq. qlra. }
  assert (Cz : (count e (map fst y) <= count c (map (@time Qc) l1))%nat).
  { rewrite <- Ci. pose proof (K5 c) as K. unfold c in K at 1. rewrite count_shift in K. rewrite map_app, count_app in K.
    rewrite (count_0 c (map _ l2)) in K; [lia|]. rewrite Forall_map. eapply Forall_impl; [|exact Z3].
    intros q Hq K'. unfold c in K'. cbn in Hq. qlra. }
  split; [auto|]. split; [auto|]. split; [auto|]. split; [auto|]. split; [auto|]. split; [auto|].
  split; [|split; [|split; [|split; [|split; [|split; [|split; [|split; [|split; [|split; [|split]]]]]]]]]].
  - apply ordered_app in Oz. destruct Oz as (O1 & O2 & O3). apply ordered_app. split; [auto|]. split.
    + unfold drop_last_at in D1. destruct (rev (l1 ++ l2)) as [|bk r] eqn:Er; [discriminate|].
      assert (K : l1 ++ l2 = rev r ++ [bk]) by (rewrite <- (rev_involutive (l1 ++ l2)), Er; reflexivity).
      destruct (neqb (time bk) e); inversion D1 as [D1'].
      * assert (O : ordered (l1 ++ l2)) by (apply ordered_app; auto). rewrite K, D1' in O.
        apply ordered_app in O. destruct O as (O & _). apply ordered_app in O. apply O.
      * apply app_inv_head in D1'. subst l2'. auto.
    + intros q r Jq Jr. apply O3; auto.
  - unfold flat in *. rewrite Forall_app in Fz |- *. destruct Fz as [Fz1 Fz2]. split; auto.
    rewrite Forall_forall in Fz2 |- *. auto.
  - destruct l1 as [|q l1]; [congruence|]. exists q, l1. split; auto. cbn [app] in K3. eapply srep_front; eauto.
  - exact El.
  - intros q J B. rewrite Forall_forall in Z2. eapply srep_val; eauto. apply in_or_app; auto.
  - intros A p0 q B -> B1. rewrite Forall_forall in Z2.
    destruct (srep_dup _ _ _ _ _ _ K3 A p0 q (B ++ l2)) as [K|K]; auto.
    + rewrite <- app_assoc. reflexivity.
    + apply Z2. apply in_or_app. right. cbn; auto.
  - assert (K : In c (map (@time Qc) l1)).
    { apply count_in. assert (1 <= count e (map fst y))%nat; [|lia].
      assert (In e (map fst y)) by (apply in_map_iff; exists (e, ve); cbn; auto).
      apply in_split in H. destruct H as (r1 & r2 & ->). rewrite count_app. unfold count. cbn [filter].
      assert (B : neqb e e = true) by (apply neqb_true; auto). rewrite B. cbn [length]. lia. }
    apply in_map_iff in K. destruct K as (q & K1' & K2'). eauto.
  - intros (q & J & T). assert (2 <= count e (map fst y))%nat; [|lia].
    assert (P0 : time f0 < e) by qlra.
    assert (2 <= count e (map fst (spts (- M) f0 l e)))%nat.
    { apply spts_count; auto. exists q. split; auto. destruct J as [<-|J]; auto. exfalso. qlra. }
    pose proof (count_cons e (time f0) (map fst (spts (- M) f0 l e))). unfold y. cbn [map fst]. lia.
  - intros t v u [J|J] U1 U2; [inversion J; subst; exfalso; qlra|]. split.
    + rewrite Forall_forall in Y1. destruct (Y1 _ J) as (_ & Q & _). exact Q.
    + apply (spts_taken M e l f0); auto; try qlra. intros u' W1 W2. apply Ev; auto. qlra.
  - intros u s U1 U2 U3. destruct (spts_cover M e l f0 f) with (u := u) (s := s) as [H|(t & v & J & T)]; auto; try qlra.
    + intros u' W1 W2. apply Ev; auto. qlra.
    + right. exists t, v. cbn; auto.
  - exists ve. cbn; auto.
  - intros u U1 U2 H. destruct (spts_left M e l f0 f) with (u := u) as (v & J & K); auto; try qlra.
    + intros u' W1 W2. apply Ev; auto. qlra.
    + exists v. cbn; auto.
Qed.
