(** Correctness of the backward sweep of "until". *)
From Coq Require Import List QArith Qcanon Bool Lia.
From Verif Require Import Num Base Signal QcTac Spec Robust Repr AndProof NegProof SimplifyProof Lip BoolOps Closed EvProof BoundedProof.
Import ListNotations.
Local Open Scope Qc_scope.

(** ** Infima of a function given by closed pieces *)
Definition lowest (f : Qc -> Qc) (l : list smp) (u t : Qc) : Qc :=
  fold_right (fun p m => if Qclt_le_dec (time p) u then m else if Qclt_le_dec t (time p) then m else qmin (f (time p)) m)
             (qmin (f u) (f t)) l.

Lemma lowest_attained : forall f l u t, u <= t -> exists r, u <= r /\ r <= t /\ lowest f l u t = f r.
Proof.
  intros f l u t H. induction l as [|p l (r & R1 & R2 & R3)]; cbn [lowest fold_right].
  - destruct (qmin_cases (f u) (f t)) as [[-> _]|[-> _]]; [exists u|exists t]; repeat split; qlra.
  - fold (lowest f l u t). destruct (Qclt_le_dec (time p) u); [eauto|]. destruct (Qclt_le_dec t (time p)); [eauto|].
    destruct (qmin_cases (f (time p)) (lowest f l u t)) as [[-> _]|[-> _]]; [exists (time p)|exists r]; auto.
Qed.
Lemma lowest_le : forall f l u t, lowest f l u t <= f u /\ lowest f l u t <= f t /\
  (forall q, In q l -> u <= time q -> time q <= t -> lowest f l u t <= f (time q)).
Proof.
  intros f l u t. induction l as [|p l (A & B & C)]; cbn [lowest fold_right].
  - destruct (qmin_cases (f u) (f t)) as [[-> ?]|[-> ?]]; repeat split; try qlra; intros q [].
  - fold (lowest f l u t).
    assert (K : (if Qclt_le_dec (time p) u then lowest f l u t else if Qclt_le_dec t (time p) then lowest f l u t else qmin (f (time p)) (lowest f l u t)) <= lowest f l u t).
    { destruct (Qclt_le_dec (time p) u); [qlra|]. destruct (Qclt_le_dec t (time p)); [qlra|].
      destruct (qmin_cases (f (time p)) (lowest f l u t)) as [[-> ?]|[-> ?]]; qlra. }
    split; [qlra|]. split; [qlra|]. intros q [<-|J] U1 U2; [|specialize (C q J U1 U2); qlra].
    destruct (Qclt_le_dec (time p) u); [exfalso; qlra|]. destruct (Qclt_le_dec t (time p)); [exfalso; qlra|].
    destruct (qmin_cases (f (time p)) (lowest f l u t)) as [[-> ?]|[-> ?]]; qlra.
Qed.
Lemma lowest_inf : forall f e l b, prep true f e l b -> forall u t, b <= u -> u <= t -> t <= e -> is_inf f u t (lowest f l u t).
Proof.
  intros f e l b P u t U1 U2 U3. destruct (lowest_le f l u t) as (A & B & C). split.
  - intros r R1 R2.
    assert (P' : prep true (fun v => - f v) e (negl l) b).
    { apply prepQ_neg in P. eapply prepQ_impl; [exact P|]. unfold Qneg. intros v w _ _ H. rewrite H. ring. }
    pose proof (finite_sup _ _ _ _ P' u t (- lowest f l u t)) as FS. cbn beta in FS.
    assert (K : - f r <= - lowest f l u t); [|qlra]. apply FS; auto; try qlra.
    intros q J T1 T2. apply in_map_iff in J. destruct J as (q' & <- & J). rewrite time_neg in *. specialize (C q' J). 
    assert (lowest f l u t <= f (time q')) by (apply C; qlra). qlra.
  - intros w W. destruct (lowest_attained f l u t U2) as (r & R1 & R2 & ->). auto.
Qed.

(** ** Positions in a descending list *)
Fixpoint drop_after (s : Qc) (j : list smp) : list smp :=
  match j with q :: j' => if nltb s (time q) then drop_after s j' else j | [] => [] end.
Lemma seg_and_loop_drop : forall i j z t c z' t' c' j', seg_and_loop i z t c j = Ok (z', t', c', j') -> j' = drop_after (time i) j.
Proof.
  intros i. induction j as [|q j IH]; intros z t c z' t' c' j' H; cbn [seg_and_loop drop_after] in *; [discriminate|].
  destruct (nltb (time i) (time q)); [|congruence].
  destruct (seg_and_body i z t c q) as [[z1 c1]| | | |]; cbn [bind] in H; try discriminate. eauto.
Qed.
Lemma computeSegmentAnd_drop : forall z i t j z' j', computeSegmentAnd z i t j = Ok (z', j') -> j' = drop_after (time i) j.
Proof.
  intros z i t j z' j' H. unfold computeSegmentAnd in H.
  destruct (seg_and_loop i z t false j) as [[[[z1 t1] c1] j1]| | | |] eqn:E; cbn [bind] in H; try discriminate.
  apply seg_and_loop_drop in E. destruct (deref j1) as [sj| | | |]; cbn [bind] in H; try discriminate.
  destruct (seg_and_last i z1 t1 c1 sj) as [z2| | | |]; cbn [bind] in H; try discriminate. congruence.
Qed.
Lemma partial_ev_loop_drop : forall j z s t c m z' t' c' m' j', partial_ev_loop z j s t c m = Ok (z', t', c', m', j') -> j' = drop_after s j.
Proof.
  induction j as [|q j IH]; intros z s t c m z' t' c' m' j' H; rewrite partial_ev_loop_eq in H; [discriminate|]. cbn [drop_after].
  destruct (nltb s (time q)); [|congruence].
  destruct (ev_body z q t c m) as [[[z1 c1] m1]| | | |]; cbn [bind] in H; try discriminate. eauto.
Qed.

Lemma drop_after_drep : forall Q b j t s, drepQ true Q b j t -> b <= s -> s <= t ->
  exists q j', drop_after s j = q :: j' /\ time q <= s /\ drepQ true Q s j t /\
    (b < s -> drepQ true Q b (if neqb (time q) s then tl (q :: j') else q :: j') s).
Proof.
  intros Q b j t s D. revert s. induction D as [p j t L E|p j t L1 L2 E D IH]; intros s S1 S2; cbn [drop_after].
  - qcase; [exfalso; qlra|]. exists p, j. split; [auto|]. split; [auto|]. split.
    + apply drep_last; [qlra|]. intros u U1 U2. apply E; auto. qlra.
    + intros Lt. cbn [tl]. qcase; [exfalso; qlra|]. apply drep_last; auto. intros u U1 U2. apply E; auto. cbn in *. qlra.
  - qcase.
    + destruct (IH s S1) as (q & j' & A1 & A2 & A3 & A4); [qlra|]. exists q, j'. split; [auto|]. split; [auto|]. split; [|auto].
      apply drep_step; auto.
    + exists p, j. split; [auto|]. split; [auto|]. split.
      * apply drep_last; auto. intros u U1 U2. apply E; auto. qlra.
      * intros Lt. cbn [tl]. qcase; [subst s; auto|]. apply drep_step; auto. intros u U1 U2. apply E; auto. cbn in *. qlra.
Qed.

(** ** "eventually" on a list whose last piece may start before [s] *)
Fixpoint cut (s : Qc) (j : list smp) : list smp :=
  match j with q :: j' => if nltb s (time q) then q :: cut s j' else [mkS s (line q s) (deriv q)] | [] => [] end.
Definition fits (s : Qc) (j : list smp) : Prop :=
  match drop_after s j with q :: _ => time q = s \/ 0 <= deriv q | [] => True end.

Lemma partial_ev_last_cut : forall z q s t c m, time q = s \/ 0 <= deriv q ->
  partial_ev_last z q s t c m = partial_ev_last z (mkS s (line q s) (deriv q)) s t c m.
Proof.
  intros z q s t c m H. unfold partial_ev_last. cbn [deriv]. vline. rewrite !line_cut. cbn [value].
  destruct (nleb n0 (deriv q)) eqn:D; [reflexivity|]. qb.
  destruct H as [H|H]; [|exfalso; qlra]. rewrite <- H, line_at. reflexivity.
Qed.
Lemma partial_ev_cut : forall M j z s t, fits s j ->
  computePartialEventually M z j s t = rmap (fun p => (fst p, drop_after s j)) (computePartialEventually M z (cut s j) s t).
Proof.
  intros M j z s t F. unfold computePartialEventually. generalize false as c, (BOTTOM M) as m. intros c m.
  revert z t c m. unfold fits in F. induction j as [|q j IH]; intros z t c m; [reflexivity|].
  cbn [cut drop_after] in *. rewrite partial_ev_loop_eq. destruct (nltb s (time q)) eqn:B.
  - rewrite partial_ev_loop_eq, B. destruct (ev_body z q t c m) as [[[z1 c1] m1]| | | |]; cbn [bind rmap]; auto.
  - rewrite partial_ev_loop_eq. cbn [time]. replace (nltb s s) with false by (symmetry; apply nltb_false; qlra).
    cbn [bind deref]. rewrite partial_ev_last_cut by auto.
    destruct (partial_ev_last z (mkS s (line q s) (deriv q)) s t c m); reflexivity.
Qed.
Lemma evp_cut : forall f s e j t st, drep true f s j t -> s <= t -> t <= e -> (st = false -> t = e) -> evp f true s e st (cut s j) t.
Proof.
  intros f s e j t st D. revert st. induction D as [p j t L E|p j t L1 L2 E D IH]; intros st S1 S2 St; cbn [cut].
  - qcase; [exfalso; qlra|].
    assert (Pp : piece f true e (mkS s (line p s) (deriv p)) t).
    { constructor; cbn [time]; auto.
      - intros u U1 U2. rewrite line_cut. auto.
      - intros ->. rewrite line_cut. apply E; cbn; qlra. }
    apply evp_last; auto. intros K. split; [auto|]. rewrite <- (St K), line_cut. apply E; cbn; qlra.
  - qcase; [|exfalso; qlra].
    assert (Pp : piece f true e p t).
    { constructor; auto. intros K. rewrite <- K. apply E; cbn; qlra. }
    apply evp_step; auto.
    + intros K. split; [auto|]. rewrite <- (St K). apply E; cbn; qlra.
    + apply IH; auto; try qlra; try discriminate.
Qed.

(** The sweep of "eventually" adds no sample at its end time. *)
Fixpoint desc (t : Qc) (j : list smp) : Prop :=
  match j with [] => True | q :: j' => time q < t /\ desc (time q) j' end.

Lemma cross_lt : forall p t m, deriv p < 0 -> line p t < m -> time p + (m - value p) / deriv p < t.
Proof.
  intros p t m D L. unfold line in L. qdiv (m - value p) (deriv p). qnra.
Qed.

Lemma ev_loop_lt : forall e j z s t c m z' t' c' m' j', partial_ev_loop z j s t c m = Ok (z', t', c', m', j') ->
  Forall (fun q => time q < e) z -> t <= e -> (c = true -> t < e) -> Forall (fun q => time q < e) j -> s < e ->
  Forall (fun q => time q < e) z' /\ t' <= e /\ (c' = true -> t' < e).
Proof.
  intros e. induction j as [|p j IH]; intros z s t c m z' t' c' m' j' H F T C D Se; rewrite partial_ev_loop_eq in H; [discriminate|].
  destruct (nltb s (time p)) eqn:B; [|inversion H; subst; auto]. inversion D as [|? ? D1 D2]; subst.
  destruct (ev_body z p t c m) as [[[z1 c1] m1]| | | |] eqn:Eb; cbn [bind] in H; try discriminate.
  assert (Fp : Forall (fun q => time q < e) (if c then mkS t m 0 :: z else z)) by (destruct c; [constructor; cbn; auto|auto]).
  eapply IH; [exact H| |qlra|intros _; qlra|auto|auto].
  unfold ev_body in Eb. vline. change n0 with 0 in *.
  destruct (nleb 0 (deriv p)) eqn:Dp; [|destruct (nleb m (line p t)) eqn:L1; [|destruct (nleb (value p) m) eqn:L2]].
  - destruct (nltb m (line p t)); inversion Eb; subst; auto.
  - inversion Eb; subst. constructor; [qlra|auto].
  - inversion Eb; subst; auto.
  - qb. rewrite ndiv_some in Eb by (intro; qlra). cbn [of_div bind] in Eb. inversion Eb; subst.
    constructor; [qlra|]. constructor; auto. cbn [time]. eapply Qclt_le_trans; [exact (cross_lt p t m Dp L1)|auto].
Qed.

Lemma drop_after_eq : forall s j q j', Forall (fun q => s <= time q) j -> drop_after s j = q :: j' -> time q = s.
Proof.
  intros s. induction j as [|p j IH]; intros q j' F H; cbn [drop_after] in H; [discriminate|]. inversion F; subst.
  destruct (nltb s (time p)) eqn:B; [eauto|]. qb. inversion H; subst. qlra.
Qed.
Lemma ev_lt : forall M e j z0 i0 s, Forall (fun q => time q < e) j -> Forall (fun q => s <= time q) j -> s < e ->
  computePartialEventually M [] j s e = Ok (z0, i0) -> Forall (fun q => time q < e) z0.
Proof.
  intros M e j z0 i0 s D Dr Se H. unfold computePartialEventually in H.
  destruct (partial_ev_loop [] j s e false (BOTTOM M)) as [[[[[z1 t1] c1] m1] j1]| | | |] eqn:E1; cbn [bind] in H; try discriminate.
  pose proof (partial_ev_loop_drop _ _ _ _ _ _ _ _ _ _ _ E1) as ->.
  destruct (ev_loop_lt e _ _ _ _ _ _ _ _ _ _ _ E1) as (A1 & A2 & A3); auto; try qlra; try discriminate.
  destruct (drop_after s j) as [|p j2] eqn:Ed; cbn [bind deref] in H; [discriminate|].
  destruct (partial_ev_last z1 p s t1 c1 m1) as [z2| | | |] eqn:E2; cbn [bind] in H; try discriminate.
  assert (z2 = z0) by congruence. subst z2. apply (drop_after_eq _ _ _ _ Dr) in Ed. clear Dr. rename Ed into Dr.
  assert (Fp : Forall (fun q => time q < e) (if c1 then mkS t1 m1 0 :: z1 else z1)) by (destruct c1; [constructor; cbn; auto|auto]).
  unfold partial_ev_last in E2. vline. change n0 with 0 in *.
  destruct (nleb 0 (deriv p)) eqn:Dp; [|destruct (nleb m1 (line p t1)) eqn:L1; [|destruct (nleb (line p s) m1) eqn:L2]].
  - destruct (nltb m1 (line p t1)); inversion E2; subst z0; constructor; auto.
  - inversion E2; subst z0. constructor; auto.
  - inversion E2; subst z0. constructor; auto.
  - qb. rewrite ndiv_some in E2 by (intro; qlra). cbn [of_div bind] in E2. inversion E2; subst z0.
    constructor; [auto|]. constructor; auto. cbn [time]. rewrite <- Dr. eapply Qclt_le_trans; [exact (cross_lt p t1 m1 Dp L1)|auto].
Qed.

(** ** The recursion of until *)
Section Until.
Variables (M : Qc) (xf yf : Qc -> Qc) (b e : Qc) (I : Qc -> Qc -> Qc).
Hypothesis HI : forall u t, b <= u -> u <= t -> t <= e -> is_inf xf u t (I u t).
Hypothesis XB : forall u, b <= u -> u <= e -> - M <= xf u.
Hypothesis YB : forall u, b <= u -> u <= e -> - M <= yf u.

Definition S (u v : Qc) : Prop := is_sup (fun t => qmin (yf t) (I u t)) u e v.
Definition known (t m : Qc) : Prop := S t m \/ (t = e /\ m = - M).

Lemma min_le : forall a c w, qmin a c <= w <-> a <= w \/ c <= w.
Proof.
  intros a c w. destruct (qmin_cases a c) as [[-> N]|[-> N]]; (split; [intro H; auto|intros [H|H]; auto; qlra]).
Qed.
Lemma le_min : forall a c w, w <= qmin a c <-> w <= a /\ w <= c.
Proof.
  intros a c w. destruct (qmin_cases a c) as [[-> N]|[-> N]]; (split; [intro H; split; qlra|intros [H1 H2]; qlra]).
Qed.
Lemma max_le : forall a c w, qmax a c <= w <-> a <= w /\ c <= w.
Proof.
  intros a c w. destruct (qmax_cases a c) as [[-> N]|[-> N]]; (split; [intro H; split; qlra|intros [H1 H2]; qlra]).
Qed.
Lemma le_max : forall a c w, w <= qmax a c <-> w <= a \/ w <= c.
Proof.
  intros a c w. destruct (qmax_cases a c) as [[-> N]|[-> N]]; (split; [intro H; auto|intros [H|H]; auto; qlra]).
Qed.

(** Infima over a longer interval. *)
Lemma inf_split : forall u t r, b <= u -> u <= t -> t <= r -> r <= e -> I u r = qmin (I u t) (I t r).
Proof.
  intros u t r U1 U2 U3 U4.
  destruct (HI u r) as [A1 A2]; try qlra. destruct (HI u t) as [B1 B2]; try qlra. destruct (HI t r) as [C1 C2]; try qlra.
  apply Qcle_antisym.
  - apply le_min. split; [apply B2|apply C2]; intros v V1 V2; apply A1; qlra.
  - apply A2. intros v V1 V2. apply min_le. destruct (Qclt_le_dec v t); [left; apply B1|right; apply C1]; qlra.
Qed.
Lemma inf_low : forall u r, b <= u -> u <= r -> r <= e -> - M <= I u r.
Proof. intros u r U1 U2 U3. destruct (HI u r) as [_ H]; try qlra. apply H. intros v V1 V2. apply XB; qlra. Qed.
Lemma inf_le : forall u r v, b <= u -> u <= v -> v <= r -> r <= e -> I u r <= xf v.
Proof. intros u r v U1 U2 U3 U4. destruct (HI u r) as [H _]; try qlra. apply H; auto. Qed.
Lemma inf_at : forall u r v, b <= u -> u <= v -> v <= r -> r <= e -> (forall w, u <= w -> w <= r -> xf v <= xf w) -> I u r = xf v.
Proof.
  intros u r v U1 U2 U3 U4 H. apply Qcle_antisym; [apply inf_le; auto|]. destruct (HI u r) as [_ K]; try qlra. apply K; auto.
Qed.

(** The value at [u] from the values on [[u,t]] and the value at [t]. *)
Lemma until_split : forall u t m v, b <= u -> u <= t -> t <= e -> known t m ->
  (forall r, u <= r -> r <= t -> qmin (yf r) (I u r) <= v) -> qmin (I u t) m <= v ->
  (forall w, (forall r, u <= r -> r <= t -> qmin (yf r) (I u r) <= w) -> qmin (I u t) m <= w -> v <= w) -> S u v.
Proof.
  intros u t m v U1 U2 U3 K A1 A2 A3. split.
  - intros r R1 R2. destruct (Qclt_le_dec t r) as [C|C]; [|auto].
    destruct K as [[K _]|[-> _]]; [|exfalso; qlra].
    rewrite (inf_split u t r); try qlra. specialize (K r ltac:(qlra) R2).
    apply min_le in A2. apply min_le. destruct A2 as [A2|A2]; [right; apply min_le; auto|].
    apply min_le in K. destruct K as [K|K]; [left; qlra|right; apply min_le; right; qlra].
  - intros w W. apply A3.
    + intros r R1 R2. apply W; qlra.
    + destruct K as [[_ K]|[-> ->]].
      * apply min_le. destruct (Qclt_le_dec w (I u t)) as [C|C]; [|auto]. right. apply K. intros r R1 R2.
        specialize (W r ltac:(qlra) R2). rewrite (inf_split u t r) in W; try qlra.
        apply min_le in W. apply min_le. destruct W as [W|W]; auto. apply min_le in W. destruct W as [W|W]; auto. exfalso; qlra.
      * assert (H : - M <= qmin (yf e) (I u e)) by (apply le_min; split; [apply YB; qlra|apply inf_low; qlra]).
        specialize (W e ltac:(qlra) ltac:(qlra)). apply min_le. right. qlra.
Qed.

Lemma falling : forall s t m u w, b <= s -> t <= e -> s <= u -> u <= t ->
  (forall p r, s <= p -> p <= r -> r <= t -> xf r <= xf p) -> known t m ->
  is_sup (fun r => qmin (xf r) (yf r)) u t w -> S u (qmax (qmin m (xf t)) w).
Proof.
  intros s t m u w S1 S2 U1 U2 D K [W1 W2].
  assert (IT : forall r, u <= r -> r <= t -> I u r = xf r).
  { intros r R1 R2. apply inf_at; try qlra. intros v V1 V2. apply D; qlra. }
  apply (until_split u t m); auto; try qlra.
  - intros r R1 R2. rewrite IT by auto. apply le_max. right. specialize (W1 r R1 R2). apply min_le in W1. apply min_le. tauto.
  - rewrite IT by qlra. apply le_max. left. apply le_min. split; apply min_le; [right|left]; qlra.
  - intros v V1 V2. rewrite IT in V2 by qlra. apply max_le. split.
    + apply min_le in V2. apply min_le. tauto.
    + apply W2. intros r R1 R2. specialize (V1 r R1 R2). rewrite IT in V1 by auto. apply min_le in V1. apply min_le. tauto.
Qed.
Lemma climbing : forall s t m u w, b <= s -> t <= e -> s <= u -> u <= t ->
  (forall p r, s <= p -> p <= r -> r <= t -> xf p <= xf r) -> known t m ->
  is_sup yf u t w -> S u (qmax (qmin (xf u) m) (qmin (xf u) w)).
Proof.
  intros s t m u w S1 S2 U1 U2 D K [W1 W2].
  assert (IT : forall r, u <= r -> r <= t -> I u r = xf u).
  { intros r R1 R2. apply inf_at; try qlra. intros v V1 V2. apply D; qlra. }
  apply (until_split u t m); auto; try qlra.
  - intros r R1 R2. rewrite IT by auto. apply le_max. right. apply le_min. specialize (W1 r R1 R2). split; apply min_le; [right|left]; qlra.
  - rewrite IT by qlra. apply le_max. left. qlra.
  - intros v V1 V2. rewrite IT in V2 by qlra. apply max_le. split; [auto|].
    apply min_le. destruct (Qclt_le_dec v (xf u)) as [C|C]; [|auto]. right. apply W2. intros r R1 R2. specialize (V1 r R1 R2).
    rewrite IT in V1 by auto. apply min_le in V1. destruct V1; auto. exfalso; qlra.
Qed.

(** ** One segment *)
Lemma rev_drep : forall Q l s t, prepQ true Q t l s -> l <> [] -> s <= t -> drepQ true Q s (rev l) t.
Proof.
  intros Q l s t P N L. eapply (prepQ_drepQ_aux Q l t s s t); eauto; try qlra. eapply prepQ_le_end; eauto.
Qed.

Lemma cut_times : forall s t j, Forall (fun q => time q < t) j -> s < t ->
  Forall (fun q => time q < t) (cut s j) /\ Forall (fun q => s <= time q) (cut s j).
Proof.
  intros s t. induction j as [|q j IH]; intros D L; cbn [cut] in *; [auto|]. inversion D; subst.
  destruct IH as [A1 A2]; auto. qcase; split; constructor; auto; cbn [time]; qlra.
Qed.
Lemma desc_lt : forall j t, desc t j -> Forall (fun q => time q < t) j.
Proof.
  induction j as [|q j IH]; intros t D; cbn [desc] in D; [constructor|]. destruct D as [D1 D2]. constructor; auto.
  eapply Forall_impl; [|exact (IH _ D2)]. cbn. intros p P. qlra.
Qed.
Lemma desc_drop : forall s j t q j', desc t j -> drop_after s j = q :: j' -> desc s (if neqb (time q) s then j' else q :: j').
Proof.
  intros s. induction j as [|p j IH]; intros t q j' D H; cbn [drop_after desc] in *; [discriminate|]. destruct D as [D1 D2].
  destruct (nltb s (time p)) eqn:B; [eauto|]. inversion H; subst p j. qb. qcase; [subst s; auto|]. cbn [desc]. split; [|auto]. destruct (Qclt_le_dec (time q) s); [auto|]. exfalso. apply Eb. qlra.
Qed.
Lemma desc_rev : forall l t, increasing l -> Forall (fun q => time q < t) l -> desc t (rev l).
Proof.
  induction l as [|p l IH] using rev_ind; intros t O F; [exact Logic.I|].
  rewrite rev_app_distr. cbn [rev app desc]. rewrite Forall_app in F. destruct F as [F1 F2]. inversion F2; subst. split; [auto|].
  assert (K : increasing l /\ Forall (fun q => time q < time p) l).
  { clear IH F1 F2 H1 H2. induction l as [|q l IHl]; cbn [app increasing] in *; [auto|]. destruct O as [O1 O2].
    rewrite Forall_app in O1. destruct O1 as [O1 O3]. destruct (IHl O2). inversion O3; subst. auto. }
  apply IH; tauto.
Qed.

Definition grep (z : list smp) (t : Qc) : Prop := prepQ true S e z t /\ Forall (fun q => time q < e) z.

Lemma segment_until : forall z i t j m, b <= time i -> time i < t -> t <= e ->
  (forall u, time i <= u -> u <= t -> xf u = line i u) -> drep true yf b j t -> desc t j ->
  (0 < deriv i -> fits (time i) j) -> known t m -> grep z t ->
  exists r z', computeSegmentUntil M z i t j m = Ok (r :: z', drop_after (time i) j) /\
    time r = time i /\ grep (r :: z') (time i) /\ Forall (fun q => time i < time q) z'.
Proof.
  intros z i t j m Hb Ht He HX HY Hd Hf K [R1 R2].
  remember (time i) as s eqn:Es.
  destruct (drop_after_drep _ _ _ _ s HY Hb) as (q & j' & D1 & D2 & D3 & D4); [qlra|].
  assert (Hj : hd_lt s t j).
  { intros p j0 E. subst j. destruct Hd. left. auto. }
  assert (XD : drepQ true (fun u v => xf u = v) s [i] t).
  { apply drep_last; [qlra|]. intros u U1 U2. apply HX; auto. }
  assert (AR : arep true (Qneg S) s e (negl z) t).
  { split; [apply prepQ_neg; auto|]. apply Forall_map. eapply Forall_impl; [|exact R2]. intros p P. cbn beta. rewrite time_neg. auto. }
  assert (HT : forall c, hd_lt s t [mkS s c 0]).
  { intros c p j0 E. inversion E; subst. left. cbn. qlra. }
  unfold computeSegmentUntil. rewrite <- Es. vline. change n0 with 0.
  destruct (nleb (deriv i) 0) eqn:D; qb.
  - assert (FD : forall p r, s <= p -> p <= r -> r <= t -> xf r <= xf p).
    { intros p r P1 P2 P3. rewrite !HX by qlra. unfold line. qnra. }
    destruct (computeSegmentAnd_ok true (fun u v => qmin (xf u) (yf u) = v) s t (fun u v w => xf u = v /\ yf u = w) i [] i j [] t)
      as (r1 & z1 & sj & j1 & E1 & A1 & A2 & A3 & _); rewrite <- ?Es; auto; try qlra.
    { apply (merged_of_drep true (fun u v => xf u = v) (fun u w => yf u = w)); auto. }
    { intros u v w _ _ [<- <-]. reflexivity. }
    { split; constructor. }
    pose proof (computeSegmentAnd_drop _ _ _ _ _ _ E1) as E1'. rewrite E1, E1', <- Es. cbn [bind]. rewrite <- Es in A1, A2, A3. destruct A2 as [A2 A4].
    specialize (A3 (or_introl Ht)).
    destruct (ev_sweep M (fun u => qmin (xf u) (yf u)) true s t) with (i := rev (r1 :: z1)) as (z2 & i2 & E2 & P2 & V2).
    { intros u U1 U2. apply le_min. split; [apply XB|apply YB]; qlra. }
    { apply evp_of_prep; auto; [discriminate|qlra]. }
    rewrite E2. cbn [bind]. rewrite fmin_q.
    assert (F2 : Forall (fun q => time q < t) z2).
    { eapply ev_lt; [| | |exact E2]; auto.
      - apply Forall_rev. eapply Forall_impl; [|exact A4]. cbn. intros p [P|P]; qlra.
      - apply Forall_rev. constructor; [qlra|]. eapply Forall_impl; [|exact A3]. cbn. intros p P. qlra. }
    assert (N2 : z2 <> []) by (intros ->; discriminate).
    rewrite <- (HX t) by qlra. set (c := qmin m (xf t)).
    rewrite computeSegmentOr_neg.
    destruct (computeSegmentAnd_ok true (Qneg S) s e (fun u v w => - v = c /\ is_sup (fun r => qmin (xf r) (yf r)) u t (- w))
       (neg (mkS s c 0)) [] (neg (mkS s c 0)) (negl (rev z2)) (negl z) t) as (r & z' & sj' & j2 & E3 & B1 & B2 & B3 & _);
      rewrite ?time_neg; cbn [time]; auto; try qlra.
    + apply (merged_neg true (fun u v w => v = c /\ is_sup (fun r => qmin (xf r) (yf r)) u t w) s [mkS s c 0]).
      apply (merged_of_drep true (fun u v => v = c)).
      * apply drep_last; [cbn; qlra|]. intros u _ _. apply line0.
      * apply rev_drep; auto. qlra.
    + intros u v w U1 U2 [H1 H2]. unfold Qneg. rewrite <- (Qcopp_involutive v), <- (Qcopp_involutive w), qmin_neg, Qcopp_involutive.
      rewrite H1. eapply falling; eauto; cbn in *; qlra.
    + intros p j0 E. assert (J : In p (negl (rev z2))) by (rewrite E; left; auto). apply in_map_iff in J.
      destruct J as (p' & <- & J). rewrite time_neg. apply in_rev in J. rewrite Forall_forall in F2. specialize (F2 _ J). left. qlra.
    + rewrite E3. cbn [bind rmap]. exists (neg r), (negl z'). rewrite time_neg in *. cbn [time] in *.
      split; [reflexivity|]. split; [auto|]. split; [split|].
      * destruct B2 as [B2 _]. apply prepQ_neg in B2. eapply prepQ_impl; [exact B2|]. unfold Qneg. intros u v _ _ H. rewrite Qcopp_involutive in H. auto.
      * destruct B2 as [_ B2]. change (neg r :: negl z') with (negl (r :: z')). apply Forall_map. eapply Forall_impl; [|exact B2]. cbn beta.
        intros p [P|P]; rewrite time_neg; qlra.
      * apply Forall_map. eapply Forall_impl; [|exact (B3 (or_introl Ht))]. cbn beta. intros p P. rewrite time_neg. auto.
  - assert (FD : forall p r, s <= p -> p <= r -> r <= t -> xf p <= xf r).
    { intros p r P1 P2 P3. rewrite !HX by qlra. unfold line. qnra. }
    rewrite partial_ev_cut by auto.
    destruct (ev_sweep M yf true s t) with (i := cut s j) as (z1 & i1 & E1 & P1 & V1).
    { intros u U1 U2. apply YB; qlra. }
    { apply evp_cut; auto; qlra. }
    rewrite E1. cbn [bind rmap fst].
    destruct (cut_times s t j (desc_lt _ _ Hd) Ht) as [C1 C2].
    pose proof (ev_lt _ _ _ _ _ _ C1 C2 Ht E1) as F1.
    assert (N1 : z1 <> []) by (intros ->; discriminate).
    destruct (computeSegmentAnd_ok true (fun u v => exists w, is_sup yf u t w /\ qmin (xf u) w = v) s t (fun u v w => xf u = v /\ is_sup yf u t w) i [] i (rev z1) [] t)
      as (r2 & z2 & sj & j1 & E2 & A1 & A2 & A3 & _); rewrite <- ?Es; auto; try qlra.
    { apply (merged_of_drep true (fun u v => xf u = v) (fun u w => is_sup yf u t w)); auto. apply rev_drep; auto. qlra. }
    { intros u v w _ _ [<- H]. eauto. }
    { intros p j0 E. assert (J : In p (rev z1)) by (rewrite E; left; auto). apply in_rev in J. rewrite Forall_forall in F1. left. auto. }
    { split; constructor. }
    rewrite E2. cbn [bind]. rewrite <- Es in A1, A2, A3. destruct A2 as [A2 A4].
    destruct (computeSegmentAnd_ok true (fun u v => qmin (xf u) m = v) s t (fun u v w => xf u = v /\ w = m) i [] i [mkS s m 0] [] t)
      as (r3 & z3 & sj' & j3 & E3 & B1 & B2 & B3 & _); rewrite <- ?Es; auto; try qlra.
    { apply (merged_of_drep true (fun u v => xf u = v) (fun u w => w = m)); auto. apply drep_last; [cbn; qlra|]. intros u _ _. apply line0. }
    { intros u v w _ _ [<- ->]. auto. }
    { split; constructor. }
    rewrite E3. cbn [bind]. rewrite <- Es in B1, B2, B3. destruct B2 as [B2 B4].
    rewrite computePartialOr_neg.
    assert (HH : forall l, Forall (fun q => time q < t \/ time q = s) l -> hd_lt s e (negl (rev l))).
    { intros l F p j0 E. assert (J : In p (negl (rev l))) by (rewrite E; left; auto). apply in_map_iff in J.
      destruct J as (p' & <- & J). rewrite time_neg. apply in_rev in J. rewrite Forall_forall in F. destruct (F _ J); [left; qlra|right; qlra]. }
    destruct (computePartialAnd_merged true (Qneg S) s e (fun u v w => qmin (xf u) m = - v /\ exists w', is_sup yf u t w' /\ qmin (xf u) w' = - w)
       (negl (rev (r3 :: z3))) (negl (rev (r2 :: z2))) (negl z) t) as (r & z' & E4 & G1 & G2 & G3); auto; try qlra.
    + apply (merged_neg true (fun u v w => qmin (xf u) m = v /\ exists w', is_sup yf u t w' /\ qmin (xf u) w' = w) s).
      apply (merged_of_drep true (fun u v => qmin (xf u) m = v) (fun u w => exists w', is_sup yf u t w' /\ qmin (xf u) w' = w));
        apply rev_drep; auto; try discriminate; qlra.
    + intros u v w U1 U2 (H1 & w' & H2 & H3). unfold Qneg. rewrite <- (Qcopp_involutive v), <- (Qcopp_involutive w), qmin_neg, Qcopp_involutive.
      rewrite <- H1, <- H3. eapply climbing; eauto; cbn in *; qlra.
    + rewrite E4. cbn [bind rmap]. exists (neg r), (negl z'). rewrite time_neg in *.
      split; [reflexivity|]. split; [auto|]. split; [split|].
      * destruct G2 as [G2 _]. apply prepQ_neg in G2. eapply prepQ_impl; [exact G2|]. unfold Qneg. intros u v _ _ H. rewrite Qcopp_involutive in H. auto.
      * destruct G2 as [_ G2]. change (neg r :: negl z') with (negl (r :: z')). apply Forall_map. eapply Forall_impl; [|exact G2]. cbn beta.
        intros p [P|P]; rewrite time_neg; qlra.
      * apply Forall_map. eapply Forall_impl; [|exact G3]. cbn beta. intros p P. rewrite time_neg. auto.
Qed.

(** ** The whole sweep *)
Lemma fits_next : forall s s' j t q j', desc t j -> s' < s -> drop_after s j = q :: j' ->
  fits s' j -> fits s' (if neqb (time q) s then j' else q :: j').
Proof.
  intros s s'. unfold fits. induction j as [|p j IH]; intros t q j' D L H F; cbn [drop_after desc] in *; [discriminate|].
  destruct D as [D1 D2]. destruct (nltb s (time p)) eqn:B.
  - qb. replace (nltb s' (time p)) with true in F by (symmetry; apply nltb_true; qlra). exact (IH (time p) q j' D2 L H F).
  - inversion H; subst p j. qcase; [|auto]. replace (nltb s' (time q)) with true in F by (symmetry; apply nltb_true; qlra). auto.
Qed.

Lemma grep_front : forall r z t, grep (r :: z) t -> S (time r) (value r).
Proof.
  intros r z t [R _]. inversion R as [|? ? ? t' A1 A2 A3 A4]; subst. rewrite <- (line_at r). apply A3; [qlra|]. cbn. auto.
Qed.

Lemma until_sweep : forall i j z t m, b < t -> t <= e -> drep true xf b i t -> desc t i -> drep true yf b j t -> desc t j ->
  known t m -> grep z t -> (forall p, In p i -> 0 < deriv p -> fits (qmax (time p) b) j) ->
  exists r z', until_loop M z i j b t m = Ok (r :: z') /\ time r = b /\ grep (r :: z') b /\ Forall (fun q => b < time q) z'.
Proof.
  intros i j z t m Hb Ht DX. revert j z m Hb Ht.
  induction DX as [p i t L E|p i t L1 L2 E DX IH]; intros j z m Hb Ht Di DY Dj K G F; cbn [until_loop].
  - qcase; [exfalso; qlra|]. qcase.
    + destruct (segment_until z p t j m) as (r & z' & E1 & A1 & A2 & A3); auto; try qlra.
      * intros u U1 U2. apply E; [qlra|auto].
      * intros D. rewrite <- (qmax_l (time p) b) by qlra. apply F; auto. left. auto.
      * rewrite Eb0 in *. rewrite E1. cbn [bind]. exists r, z'. auto.
    + destruct (segment_until z (mkS b (line p b) (deriv p)) t j m) as (r & z' & E1 & A1 & A2 & A3); cbn [time deriv]; auto; try qlra.
      * intros u U1 U2. rewrite line_cut. auto.
      * intros D. rewrite <- (qmax_r (time p) b) by qlra. apply F; auto. left. auto.
      * vline. rewrite E1. cbn [bind]. exists r, z'. auto.
  - qcase; [|exfalso; qlra]. cbn [desc] in Di. destruct Di as [Di1 Di2].
    destruct (segment_until z p t j m) as (r & z' & E1 & A1 & A2 & A3); auto; try qlra.
    { intros D. rewrite <- (qmax_l (time p) b) by qlra. apply F; auto. left. auto. }
    destruct (drop_after_drep _ _ _ _ (time p) DY) as (q & j' & D1 & D2 & D3 & D4); try qlra.
    rewrite E1. cbn [bind deref]. rewrite D1. cbn [bind deref].
    apply IH; auto.
    + qlra.
    + eapply desc_drop; eauto.
    + left. rewrite <- A1. eapply grep_front; eauto.
    + intros p' J D. eapply fits_next; eauto.
      * pose proof (desc_lt _ _ Di2) as FL. rewrite Forall_forall in FL. specialize (FL _ J).
        destruct (qmax_cases (time p') b) as [[-> ?]|[-> ?]]; qlra.
      * apply F; auto. right. auto.
Qed.
End Until.

Definition untilQ (xf yf : Qc -> Qc) (e : Qc) (t v : Qc) : Prop :=
  exists h, (forall u, t <= u -> u <= e -> is_inf xf t u (h u)) /\ is_sup (fun u => qmin (yf u) (h u)) t e v.

Lemma drop_after_split : forall s l q j, ordered l -> drop_after s (rev l) = q :: j ->
  exists l2, l = rev j ++ q :: l2 /\ time q <= s /\ Forall (fun r => s < time r) l2.
Proof.
  intros s. induction l as [|p l IH] using rev_ind; intros q j O H; [discriminate|].
  rewrite rev_app_distr in H. cbn [rev app drop_after] in H. destruct (nltb s (time p)) eqn:B.
  - rewrite ordered_app in O. destruct (IH q j) as (l2 & E & A1 & A2); [apply O|auto|]. exists (l2 ++ [p]). qb.
    rewrite E, <- app_assoc. split; [auto|]. split; [auto|]. apply Forall_app. auto.
  - inversion H; subst. exists []. rewrite rev_involutive. qb. auto.
Qed.

Lemma increasing_app : forall l1 l2, increasing (l1 ++ l2) -> increasing l1.
Proof.
  induction l1 as [|p l1 IH]; intros l2 H; cbn [app increasing] in *; [auto|]. destruct H as [H1 H2].
  rewrite Forall_app in H1. destruct H1. split; eauto.
Qed.

Section Whole.
Variables (M : Qc) (xf yf : Qc -> Qc) (x y : signal Qc).
Let b := qmax (beginTime x) (beginTime y).
Let e := qmin (endTime x) (endTime y).
Hypothesis Rx : crep xf x.
Hypothesis Ry : crep yf y.
Hypothesis Ix : increasing (samples x).
Hypothesis Iy : increasing (samples y).
Hypothesis Lt : b < e.
Hypothesis XB : forall u, b <= u -> u <= e -> - M <= xf u.
Hypothesis YB : forall u, b <= u -> u <= e -> - M <= yf u.
Hypothesis St : in_step x y.

Lemma until_core : exists i j r z, skip_unguarded e (rev (samples x)) = Ok i /\ skip_unguarded e (rev (samples y)) = Ok j /\
  until_loop M [] i j b e (- M) = Ok (r :: z) /\
  exists z', simplify (mkSig (r :: z) b e) = Ok z' /\ qres z' b e (untilQ xf yf e).
Proof.
  assert (B1 : beginTime x <= b /\ beginTime y <= b) by (unfold b; destruct (qmax_cases (beginTime x) (beginTime y)) as [[-> ?]|[-> ?]]; split; qlra).
  assert (B2 : e <= endTime x /\ e <= endTime y) by (unfold e; destruct (qmin_cases (endTime x) (endTime y)) as [[-> ?]|[-> ?]]; split; qlra).
  destruct B1 as [B1 B1']. destruct B2 as [B2 B2'].
  destruct (lt_drepQ x y (Qclt_le_weak _ _ Lt) x (fun u v => xf u = v)) as (x1 & x2 & X1 & X2 & X3 & X4 & X5); auto.
  destruct (lt_drepQ x y (Qclt_le_weak _ _ Lt) y (fun u v => yf u = v)) as (y1 & y2 & Y1 & Y2 & Y3 & Y4 & Y5); auto.
  exists (rev x1), (rev y1).
  pose (I := lowest xf (samples x)).
  assert (HI : forall u t, b <= u -> u <= t -> t <= e -> is_inf xf u t (I u t)).
  { intros u t U1 U2 U3. destruct Rx as [_ P]. apply (lowest_inf _ _ _ _ P); qlra. }
  rewrite X1 in Ix. rewrite Y1 in Iy.
  destruct (until_sweep M xf yf b e I HI XB YB (rev x1) (rev y1) [] e (- M)) as (r & z & E & A1 & A2 & A3); auto; try qlra.
  - apply desc_rev; eauto using increasing_app.
  - apply desc_rev; eauto using increasing_app.
  - right. auto.
  - split; constructor.
  - intros p J D. unfold fits. destruct (drop_after _ (rev y1)) as [|q j] eqn:Ed; [auto|].
    apply drop_after_split in Ed; [|apply increasing_ordered; eauto using increasing_app].
    destruct Ed as (l2 & E & T1 & T2). apply in_rev in J.
    assert (Tp : time p < e) by (rewrite Forall_forall in X3; auto).
    apply (St p (rev j) q (l2 ++ y2)); auto.
    + rewrite X1. apply in_or_app. auto.
    + rewrite Y1, E, <- app_assoc. reflexivity.
    + apply Forall_app. split; [auto|]. eapply Forall_impl; [|exact Y4]. cbn beta. intros r R.
      fold b. fold e in R. destruct (qmax_cases (time p) b) as [[-> ?]|[-> ?]]; qlra.
  - exists r, z. rewrite X1, Y1. rewrite !skip_unguarded_split by auto. split; [auto|]. split; [auto|]. split; [exact E|].
    destruct A2 as [A2 A4].
    apply simplify_qres; auto; try qlra. split.
    + eapply prepQ_impl; [exact A2|]. intros u v U1 U2 H. exists (I u). split; [|exact H].
      intros t T1 T2. apply HI; auto.
    + eapply Forall_impl; [|exact A4]. cbn. auto.
Qed.

Lemma computeUntil_q : exists z, computeUntil M x y = Ok z /\ qres z b e (untilQ xf yf e).
Proof.
  destruct until_core as (i & j & r & z & E1 & E2 & E3 & z' & E4 & Q).
  unfold computeUntil. cbv zeta. rewrite fmax_q, fmin_q. fold b e. change (BOTTOM M) with (- M).
  rewrite E1. cbn [bind]. rewrite E2. cbn [bind]. rewrite E3. cbn [bind]. eauto.
Qed.
Lemma compute_until_q : exists z, compute_until M empty_signal x y = Ok z /\ qres z b e (untilQ xf yf e).
Proof.
  destruct until_core as (i & j & r & z & E1 & E2 & E3 & z' & E4 & Q).
  unfold compute_until. destruct Rx as [Nx _]. destruct Ry as [Ny _].
  destruct (samples x) as [|sx lx] eqn:Ex; [congruence|]. destruct (samples y) as [|sy ly] eqn:Ey; [congruence|].
  cbv zeta. rewrite fmax_q, fmin_q. fold b e. change (BOTTOM M) with (- M). cbn [samples empty_signal].
  rewrite E1. cbn [bind]. rewrite E2. cbn [bind]. rewrite E3. cbn [bind]. eauto.
Qed.
End Whole.
