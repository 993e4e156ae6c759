(** Conjunction and disjunction of signals of which only the beginning is known:
    what comes later may be anything, even out of order. *)
From Coq Require Import List QArith Qcanon Bool Lia.
From Verif Require Import Num Base Signal QcTac Spec Robust Repr AndProof NegProof SimplifyProof Lip BoolOps Closed SigProof ResizeProof EvProof Transducer.
Import ListNotations.
Local Open Scope Qc_scope.

(** Two lines that change their order between [x] and [y] meet there. *)
Lemma meet : forall (i j : smp) x y, line i x < line j x -> line j y < line i y ->
  exists t', timeIntersect i j = Ok t' /\ line i t' = line j t' /\ (x < t' /\ t' < y \/ y < t' /\ t' < x).
Proof.
  intros i j x y H1 H2. destruct (Qclt_le_dec x y) as [L|L].
  - destruct (crossing2 i j x y) as (t' & E1 & E2 & E3 & E4 & _); auto; [qlra|]. exists t'. auto.
  - destruct (crossing i j y x) as (t' & E1 & E2 & E3 & E4 & _); auto. exists t'. auto.
Qed.

Inductive subl : list smp -> list smp -> Prop :=
| subl_nil : subl [] []
| subl_skip : forall p l l', subl l l' -> subl l (p :: l')
| subl_keep : forall p l l', subl l l' -> subl (p :: l) (p :: l').

Lemma subl_refl : forall l, subl l l.
Proof. induction l; [constructor|apply subl_keep; auto]. Qed.
Lemma subl_Forall : forall P l l', subl l l' -> Forall P l' -> Forall P l.
Proof. intros P l l' S. induction S; intros F; auto; inversion F; subst; auto. Qed.
Lemma subl_ordered : forall l l', subl l l' -> ordered l' -> ordered l.
Proof.
  intros l l' S. induction S; intros O; auto; cbn [ordered] in *; destruct O as [O1 O2]; auto.
  split; auto. eapply subl_Forall; eauto.
Qed.
Lemma subl_increasing : forall l l', subl l l' -> increasing l' -> increasing l.
Proof.
  intros l l' S. induction S; intros O; auto; cbn [increasing] in *; destruct O as [O1 O2]; auto.
  split; auto. eapply subl_Forall; eauto.
Qed.
Lemma subl_app_inv : forall l g k, subl l (g ++ k) -> exists g' k', l = g' ++ k' /\ subl g' g /\ subl k' k.
Proof.
  intros l g k. revert l. induction g as [|p g IH]; intros l S; cbn [app] in S.
  - exists [], l. split; auto. split; [constructor|auto].
  - inversion S; subst.
    + destruct (IH _ H1) as (g' & k' & -> & A & B). exists g', k'. split; auto. split; [apply subl_skip; auto|auto].
    + destruct (IH _ H1) as (g' & k' & -> & A & B). exists (p :: g'), k'. split; auto. split; [apply subl_keep; auto|auto].
Qed.
Lemma subl_drop : forall d p l l', subl l (d ++ l') -> subl l (d ++ p :: l').
Proof.
  induction d as [|q d IH]; intros p l l' S; cbn [app] in *; [apply subl_skip; auto|].
  inversion S; subst; [apply subl_skip|apply subl_keep]; auto.
Qed.

(** ** simplify drops samples *)
Lemma simplify_loop_sub : forall rest n b f0 d, (length rest <= n)%nat -> time f0 = b -> Forall (fun q => b < time q) rest ->
  exists d', simplify_loop n b (rest ++ f0 :: d) = Ok (f0 :: d') /\ subl d' (d ++ rest).
Proof.
  induction rest as [|f rest IH]; intros n b f0 d Hn Hf0 Hr.
  - cbn [app]. exists d. rewrite app_nil_r.
    assert (E : neqb (time f0) b = true) by (apply neqb_true; auto).
    destruct n; cbn [simplify_loop]; rewrite E; auto using subl_refl.
  - destruct n as [|n]; [simpl in Hn; lia|]. cbn [app simplify_loop]. inversion Hr as [|? ? Hf Hr']; subst.
    assert (E : neqb (time f) (time f0) = false) by (apply neqb_false; intro; qlra). rewrite E.
    assert (Hb : f :: rest ++ f0 :: d = (f :: rest) ++ f0 :: d) by reflexivity.
    rewrite Hb, back_app2 by discriminate.
    destruct (back_cons _ f0 d) as (d0 & bk & Ed). rewrite Ed, back_app. cbn [bind]. rewrite <- Ed.
    destruct (negb _ || negb _).
    + destruct (IH n (time f0) f0 (d ++ [f])) as (d' & R1 & R2); auto; [simpl in Hn; lia|].
      rewrite <- app_assoc in R2. cbn [app] in R2. exists d'. split; auto. rewrite <- app_assoc. exact R1.
    + destruct (IH n (time f0) f0 d) as (d' & R1 & R2); auto; [simpl in Hn; lia|].
      exists d'. split; auto. apply subl_drop. auto.
Qed.

Lemma simplify_sub : forall f0 l b e, time f0 = b -> Forall (fun q => b < time q) l ->
  exists l' bk, subl l' l /\ back (f0 :: l') = Ok bk /\
    simplify (mkSig (f0 :: l) b e) = Ok (mkSig (f0 :: l' ++ (if nltb (time bk) e then [mkS e (line bk e) 0] else [])) b e).
Proof.
  intros f0 l b e H F. unfold simplify. cbn [samples beginTime endTime].
  destruct (simplify_loop_sub l (2 * length (f0 :: l)) b f0 []) as (d' & R1 & R2); auto.
  { simpl; lia. }
  change (l ++ [f0]) with (l ++ f0 :: []). rewrite R1. cbn [bind app] in *.
  destruct (back_cons _ f0 d') as (d0 & bk & Ed). exists d', bk. split; auto. rewrite Ed, back_app. split; auto. cbn [bind].
  vline. change n0 with 0. destruct (nltb (time bk) e); [rewrite app_comm_cons, Ed; reflexivity|rewrite app_nil_r, Ed; reflexivity].
Qed.

Section Front.
Variable s : Qc.

Definition later (q : smp) : Prop := s < time q.
(** A piece that starts by [s] and has the value [v] from there to [s]. *)
Definition good (v : Qc) (q : smp) : Prop := time q <= s /\ value q = v /\ line q s = v.

Lemma good_flat : forall v q u, good v q -> time q <= u -> u <= s -> line q u = v.
Proof.
  intros v q u (G1 & G2 & G3) U1 U2. unfold line in *. rewrite G2 in *.
  destruct (Qc_eq_dec (time q) s) as [E|E].
  - replace u with (time q) by (apply Qcle_antisym; rewrite ?E in *; auto). ring.
  - assert (K : deriv q * (s - time q) = 0) by (replace (deriv q * (s - time q)) with (v + deriv q * (s - time q) - v) by ring; rewrite G3; ring).
    apply Qcmult_integral in K. destruct K as [K|K]; [rewrite K; ring|]. exfalso. apply E. qlra.
Qed.
Lemma good_at : forall v q, good v q -> line q (time q) = v.
Proof. intros v q (G1 & G2 & G3). rewrite line_at. auto. Qed.

(** Good pieces from [t] on, then anything. *)
Definition sp (v t : Qc) (z : list smp) : Prop :=
  exists g k, z = g ++ k /\ ordered g /\ Forall (good v) g /\ Forall (fun q => t <= time q) g /\ Forall later k.

Lemma sp_later : forall v t z, Forall later z -> sp v t z.
Proof. intros v t z F. exists [], z. repeat split; auto; constructor. Qed.
Lemma sp_push : forall v t z p, good v p -> time p <= t -> sp v t z -> sp v (time p) (p :: z).
Proof.
  intros v t z p G L (g & k & -> & O & Fg & Ft & Fk). exists (p :: g), k. split; [reflexivity|].
  assert (F : Forall (fun q => time p <= time q) g) by (eapply Forall_impl; [|exact Ft]; cbn; intros; qlra).
  split; [split; auto|]. split; [constructor; auto|]. split; [constructor; auto; apply Qcle_refl|auto].
Qed.
Lemma sp_mono : forall v t t' z, t' <= t -> sp v t z -> sp v t' z.
Proof.
  intros v t t' z L (g & k & -> & O & Fg & Ft & Fk). exists g, k. repeat split; auto.
  eapply Forall_impl; [|exact Ft]. cbn. intros; qlra.
Qed.
Lemma sp_times : forall v t z, sp v t z -> Forall (fun q => t <= time q \/ later q) z.
Proof.
  intros v t z (g & k & -> & O & Fg & Ft & Fk). apply Forall_app. split; [eapply Forall_impl; [|exact Ft]|eapply Forall_impl; [|exact Fk]]; cbn; auto.
Qed.
Lemma sp_sub : forall v t z z', subl z' z -> sp v t z -> sp v t z'.
Proof.
  intros v t z z' S (g & k & -> & O & Fg & Ft & Fk). apply subl_app_inv in S. destruct S as (g' & k' & -> & A & B).
  exists g', k'. split; auto. split; [eapply subl_ordered; eauto|]. repeat split; eapply subl_Forall; eauto.
Qed.

Section And.
Variables (b v1 v2 : Qc).
Hypothesis Bs : b <= s.
Notation vm := (qmin v1 v2).

(** The same read backwards, down to [b]. *)
Inductive tailg (v : Qc) : list smp -> Qc -> Prop :=
| tl_last : forall p j t, good v p -> time p <= b -> time p <= t -> tailg v (p :: j) t
| tl_step : forall p j t, good v p -> b < time p -> time p <= t -> tailg v j (time p) -> tailg v (p :: j) t.
Inductive jl (v : Qc) : list smp -> Prop :=
| jl_good : forall j, tailg v j s -> jl v j
| jl_junk : forall p j, later p -> jl v j -> jl v (p :: j).

Definition stj (v : Qc) (j : list smp) (t : Qc) : Prop := s < t /\ jl v j \/ t <= s /\ tailg v j t.
Definition stz (z : list smp) (t : Qc) (c : bool) : Prop :=
  s < t /\ Forall later z \/ t <= s /\ sp vm t z /\ (c = true -> v1 <= v2).

Lemma tailg_head : forall v q j t, tailg v (q :: j) t -> good v q /\ time q <= t.
Proof. intros v q j t H. inversion H; subst; auto. Qed.
Lemma tailg_tl : forall v q j t, tailg v (q :: j) t -> b < time q -> tailg v j (time q).
Proof. intros v q j t H L. inversion H; subst; auto. exfalso; qlra. Qed.
Lemma tailg_mono : forall v q j t t', tailg v (q :: j) t -> time q <= t' -> tailg v (q :: j) t'.
Proof. intros v q j t t' H L. inversion H; subst; [apply tl_last|apply tl_step]; auto. Qed.
Lemma jl_head : forall v q j, jl v (q :: j) -> time q <= s -> tailg v (q :: j) s.
Proof. intros v q j H L. inversion H; subst; auto. exfalso. unfold later in *. qlra. Qed.
Lemma jl_tl : forall v q j, jl v (q :: j) -> s < time q -> jl v j.
Proof. intros v q j H L. inversion H; subst; auto. apply tailg_head in H0. destruct H0 as [(G & _) _]. exfalso; qlra. Qed.
Lemma stj_head : forall v q j t, stj v (q :: j) t -> time q <= s -> good v q.
Proof.
  intros v q j t [[H1 H2]|[H1 H2]] L; [apply jl_head in H2; auto|]; eapply tailg_head; eauto.
Qed.
Lemma stj_next : forall v q j t, stj v (q :: j) t -> b < time q -> stj v j (time q).
Proof.
  intros v q j t [[H1 H2]|[H1 H2]] L.
  - destruct (Qclt_le_dec s (time q)) as [C|C]; [left; split; auto; eapply jl_tl; eauto|].
    right. split; auto. apply jl_head in H2; auto. eapply tailg_tl; eauto.
  - right. pose proof (tailg_head _ _ _ _ H2) as [_ K]. split; [qlra|]. eapply tailg_tl; eauto.
Qed.
Lemma stj_nil : forall v t, ~ stj v [] t.
Proof. intros v t [[_ H]|[_ H]]; inversion H; subst. inversion H0. Qed.
Lemma stj_mono : forall v q j t t', stj v (q :: j) t -> time q <= t' -> stj v (q :: j) t'.
Proof.
  intros v q j t t' H L. destruct (Qclt_le_dec s t') as [C|C].
  - left. split; auto. destruct H as [[H1 H2]|[H1 H2]]; auto. apply jl_good.
    eapply tailg_mono; eauto. destruct (tailg_head _ _ _ _ H2). qlra.
  - right. split; auto. destruct H as [[H1 H2]|[H1 H2]]; [apply jl_head in H2; [|qlra]|]; eapply tailg_mono; eauto.
Qed.

Lemma stz_later : forall z t c, stz z t c -> s < t -> Forall later z.
Proof. intros z t c [[H1 H2]|[H1 H2]] L; auto. exfalso; qlra. Qed.
Lemma stz_sp : forall z t c, stz z t c -> sp vm t z.
Proof. intros z t c [[H1 H2]|[H1 [H2 H3]]]; auto. apply sp_later. auto. Qed.

(** The samples put in front when the sweep moves from [t] to [x]. *)
Lemma push_later : forall z t c p, stz z t c -> s < t -> later p -> Forall later (p :: z).
Proof. intros z t c p H L P. constructor; auto. eapply stz_later; eauto. Qed.

Section Step.
Variables (i : smp).
(** [i] is a later piece, or a good one. *)
Hypothesis Hi : later i \/ good v1 i /\ b <= time i.

Lemma at_good : forall u, good v1 i -> time i <= u -> u <= s -> line i u = v1.
Proof. intros u G L1 L2. eapply good_flat; eauto. Qed.

Lemma body_front : forall z t c j, (s < t \/ time j <= t) -> stz z t c -> time i < time j -> (time i <= s -> time i <= t) -> (s < time j \/ good v2 j) ->
  exists z' c', seg_and_body i z t c j = Ok (z', c') /\ stz z' (time j) c'.
Proof.
  intros z t c j Tt Z Lij Lit Hj. unfold seg_and_body. cbv zeta. vline. rewrite <- (line_at j).
  destruct (Qclt_le_dec s (time j)) as [Lj|Lj].
  - (* everything is later than [s] *)
    assert (Lt : s < t) by (destruct Tt; qlra).
    pose proof (stz_later _ _ _ Z Lt) as F.
    assert (FC : Forall later (if c then mkS t (line i t) (deriv i) :: z else z)) by (destruct c; auto; constructor; auto).
    assert (OUT : forall z' c', Forall later z' -> stz z' (time j) c') by (intros; left; auto).
    qcase; [qcase|qtest (neqb (line i t) (line j t)); qcase].
    + destruct (meet i j t (time j)) as (t' & E1 & E2 & E3); auto. rewrite E1. cbn [bind]. do 2 eexists. split; [reflexivity|].
      apply OUT. constructor; [exact Lj|]. constructor; [|exact F]. unfold later. cbn [time]. destruct E3 as [[]|[]]; qlra.
    + eauto.
    + do 2 eexists. split; [reflexivity|]. apply OUT. constructor; auto.
    + eauto.
    + assert (K : line j t < line i t) by (destruct (Qc_neq_lt _ _ Eb0); auto; exfalso; qlra).
      destruct (meet i j (time j) t) as (t' & E1 & E2 & E3); auto. rewrite E1. cbn [bind]. do 2 eexists. split; [reflexivity|].
      apply OUT. constructor; [|exact FC]. unfold later. cbn [time]. destruct E3 as [[]|[]]; qlra.
    + do 2 eexists. split; [reflexivity|]. apply OUT. constructor; auto.
  - destruct Hj as [Hj|Gj]; [exfalso; qlra|].
    destruct Hi as [Hi'|[Gi Bi]]; [exfalso; unfold later in *; qlra|].
    rewrite (good_flat _ _ (time j) Gi) by qlra. rewrite (good_at _ _ Gj).
    assert (Gp : v2 <= v1 -> good vm (mkS (time j) v2 (deriv j))).
    { intros L. rewrite qmin_r by auto. destruct Gj as (G1 & G2 & G3). split; [auto|]. split; [reflexivity|].
      rewrite <- G2. rewrite line_same. rewrite G3; auto. }
    assert (Z0 : Forall later z \/ t <= s) by (destruct Z as [[_ Z]|[Z _]]; auto).
    (* where the lines meet *)
    assert (MT : s < t -> forall t', line i t' = line j t' -> v1 <> v2 -> time j < t' -> s < t').
    { intros Lt t' E N L. apply Qcnot_le_lt. intro C. apply N.
      rewrite <- (good_flat _ _ t' Gi), <- (good_flat _ _ t' Gj), E by qlra. reflexivity. }
    pose proof (stz_sp _ _ _ Z) as SPz.
    assert (LE : v1 <= v2 -> stz z (time j) true).
    { intros L. right. split; [auto|]. split; [|auto].
      destruct (Qclt_le_dec s t) as [C|C]; [apply sp_later; eapply stz_later; eauto|].
      eapply sp_mono; [|exact SPz]. destruct Tt; qlra. }
    assert (SC : v2 < v1 -> s < t \/ c = false).
    { intros L. destruct (Qclt_le_dec s t) as [C|C]; auto. right. destruct c; auto. exfalso.
      destruct Z as [[Z1 _]|(_ & _ & Z)]; [qlra|]. specialize (Z eq_refl). qlra. }
    assert (PUSH : forall z1, v2 <= v1 -> (s < t -> Forall later z1) -> (t <= s -> z1 = z) ->
       stz (mkS (time j) v2 (deriv j) :: z1) (time j) false).
    { intros z1 L F1 F2. right. split; [auto|]. split; [|discriminate].
      destruct (Qclt_le_dec s t) as [C|C].
      - apply (sp_push _ t _ (mkS (time j) v2 (deriv j))); [auto|cbn [time]; qlra|]. apply sp_later. auto.
      - rewrite F2 by auto. apply (sp_push _ t _ (mkS (time j) v2 (deriv j))); [auto|cbn [time]; destruct Tt as [Tt|Tt]; qlra|]. auto. }
    assert (TJ : t <= s -> line i t = v1 /\ line j t = v2).
    { intros L. split; [apply (good_flat _ _ _ Gi); auto; apply Lit; qlra|apply (good_flat _ _ _ Gj); auto; destruct Tt as [X|X]; [exfalso; qlra|auto]]. }
    assert (FC : s < t -> Forall later (if c then mkS t (line i t) (deriv i) :: z else z)).
    { intros C. pose proof (stz_later _ _ _ Z C). destruct c; auto. }
    qcase; [qcase|qtest (neqb (line i t) (line j t)); qcase].
    + assert (Lt : s < t).
      { apply Qcnot_le_lt. intro C. destruct (TJ C). qlra. }
      destruct (meet i j t (time j)) as (t' & E1 & E2 & E3); auto.
      { rewrite (good_at _ _ Gj), (good_flat _ _ (time j) Gi) by qlra. auto. }
      rewrite E1. cbn [bind]. do 2 eexists. split; [reflexivity|]. apply PUSH; [qlra| |intros; exfalso; qlra].
      intros _. constructor; [|eapply stz_later; eauto]. unfold later. cbn [time]. apply MT; auto; [intro; qlra|]. destruct E3 as [[]|[]]; qlra.
    + do 2 eexists. split; [reflexivity|]. apply LE. auto.
    + do 2 eexists. split; [reflexivity|]. apply PUSH; [qlra|auto|].
      intros C. destruct (TJ C). exfalso. qlra.
    + do 2 eexists. split; [reflexivity|]. apply LE. auto.
    + assert (K : line j t < line i t) by (destruct (Qc_neq_lt _ _ Eb0); auto; exfalso; qlra).
      assert (Lt : s < t).
      { apply Qcnot_le_lt. intro C. destruct (TJ C). qlra. }
      destruct (meet i j (time j) t) as (t' & E1 & E2 & E3); auto.
      { rewrite (good_at _ _ Gj), (good_flat _ _ (time j) Gi) by qlra. auto. }
      rewrite E1. cbn [bind]. do 2 eexists. split; [reflexivity|]. right. split; [auto|]. split; [|intros; qlra].
      apply sp_later. constructor; auto. unfold later. cbn [time]. apply MT; auto; [intro; qlra|]. destruct E3 as [[]|[]]; qlra.
    + do 2 eexists. split; [reflexivity|]. apply PUSH; [qlra|auto|].
      intros C. destruct (TJ C) as [T1 T2]. rewrite T1, T2 in *.
      assert (K : v2 < v1) by (destruct (Qc_neq_lt _ _ Eb0); auto; exfalso; qlra).
      destruct (SC K) as [X| ->]; [exfalso; qlra|reflexivity].
Qed.

Lemma last_front : forall z t c j, (time i <= s -> time i <= t) -> time j <= time i -> stz z t c -> (s < time i \/ good v2 j) -> (s < time i -> s < t) ->
  exists p z', seg_and_last i z t c j = Ok (p :: z') /\ time p = time i /\
    (s < time i -> Forall later (p :: z')) /\
    (time i <= s -> good vm p /\ sp vm t z' /\ (time i < t \/ z = [] /\ c = false -> Forall (fun q => time i < time q) z')).
Proof.
  intros z t c j Lit Lji Z Hj Ltt. unfold seg_and_last. cbv zeta. vline. rewrite <- (line_at i).
  destruct (Qclt_le_dec s (time i)) as [Li|Li].
  - specialize (Ltt Li). pose proof (stz_later _ _ _ Z Ltt) as F.
    assert (FC : Forall later (if c then mkS t (line i t) (deriv i) :: z else z)) by (destruct c; auto; constructor; auto).
    assert (OUT : forall p z', time p = time i -> Forall later z' ->
      exists p0 z0, Ok (p :: z') = Ok (p0 :: z0) /\ time p0 = time i /\ (s < time i -> Forall later (p0 :: z0)) /\
       (time i <= s -> good vm p0 /\ sp vm t z0 /\ (time i < t \/ z = [] /\ c = false -> Forall (fun q => time i < time q) z0))).
    { intros p z' P Fz. exists p, z'. split; [auto|]. split; [auto|]. split; [intros; constructor; auto; unfold later; rewrite P; auto|intros; exfalso; qlra]. }
    qcase; [qcase|qtest (neqb (line i t) (line j t)); qcase].
    + destruct (meet i j t (time i)) as (t' & E1 & E2 & E3); auto. rewrite E1. cbn [bind]. apply OUT; auto.
      constructor; auto. unfold later. cbn [time]. destruct E3 as [[]|[]]; qlra.
    + apply OUT; auto.
    + apply OUT; auto.
    + apply OUT; auto.
    + assert (K : line j t < line i t) by (destruct (Qc_neq_lt _ _ Eb0); auto; exfalso; qlra).
      destruct (meet i j (time i) t) as (t' & E1 & E2 & E3); auto. rewrite E1. cbn [bind]. apply OUT; auto.
      constructor; auto. unfold later. cbn [time]. destruct E3 as [[]|[]]; qlra.
    + apply OUT; auto.
  - destruct Hj as [Hj|Gj]; [exfalso; qlra|].
    destruct Hi as [Hi'|[Gi Bi]]; [exfalso; unfold later in *; qlra|].
    rewrite (good_at _ _ Gi). rewrite (good_flat _ _ (time i) Gj) by qlra.
    assert (Gp : v2 <= v1 -> good vm (mkS (time i) v2 (deriv j))).
    { intros L. rewrite qmin_r by auto. split; [auto|]. split; [reflexivity|].
      rewrite <- (good_flat _ _ (time i) Gj) at 1 by qlra. rewrite line_cut. apply Gj. }
    assert (Gi' : v1 <= v2 -> good vm i) by (intros L; rewrite qmin_l by auto; auto).
    pose proof (stz_sp _ _ _ Z) as SPz. pose proof (sp_times _ _ _ SPz) as TZ.
    assert (FZ : time i < t \/ z = [] /\ c = false -> Forall (fun q => time i < time q) z).
    { intros [C|[-> _]]; [|constructor]. eapply Forall_impl; [|exact TZ]. cbn beta. unfold later. intros q [Q|Q]; qlra. }
    assert (FC : time i < t \/ z = [] /\ c = false -> Forall (fun q => time i < time q) (if c then mkS t (line i t) (deriv i) :: z else z)).
    { intros C. destruct c; [constructor; [|apply FZ; auto]|apply FZ; auto]. destruct C as [C|[_ C]]; [auto|discriminate]. }
    assert (SPC : (t <= s -> c = false) -> sp vm t (if c then mkS t (line i t) (deriv i) :: z else z)).
    { intros C. destruct (Qclt_le_dec s t) as [D|D]; [|rewrite C; auto]. apply sp_later. pose proof (stz_later _ _ _ Z D).
      destruct c; auto. }
    assert (OUT : forall p z', time p = time i -> good vm p -> sp vm t z' ->
      (time i < t \/ z = [] /\ c = false -> Forall (fun q => time i < time q) z') ->
      exists p0 z0, Ok (p :: z') = Ok (p0 :: z0) /\ time p0 = time i /\ (s < time i -> Forall later (p0 :: z0)) /\
       (time i <= s -> good vm p0 /\ sp vm t z0 /\ (time i < t \/ z = [] /\ c = false -> Forall (fun q => time i < time q) z0))).
    { intros p z' P1 P2 P3 P4. exists p, z'. split; [auto|]. split; [auto|]. split; [intros; exfalso; qlra|auto]. }
    assert (TJ : t <= s -> line i t = v1 /\ line j t = v2).
    { intros L. specialize (Lit Li). split; [apply (good_flat _ _ _ Gi)|apply (good_flat _ _ _ Gj)]; auto; qlra. }
    assert (CF : v2 < v1 -> t <= s -> c = false).
    { intros L C. destruct c; auto. exfalso. destruct Z as [[Z1 _]|(_ & _ & Z)]; [qlra|]. specialize (Z eq_refl). qlra. }
    assert (MT : forall t', line i t' = line j t' -> v1 <> v2 -> time i < t' -> s < t').
    { intros t' E N L. apply Qcnot_le_lt. intro C. apply N.
      rewrite <- (good_flat _ _ t' Gi), <- (good_flat _ _ t' Gj), E by qlra. reflexivity. }
    qcase; [qcase|qtest (neqb (line i t) (line j t)); qcase].
    + assert (Lt : s < t).
      { apply Qcnot_le_lt. intro C. destruct (TJ C). qlra. }
      destruct (meet i j t (time i)) as (t' & E1 & E2 & E3); auto.
      { rewrite (good_at _ _ Gi), (good_flat _ _ (time i) Gj) by qlra. auto. }
      assert (L' : s < t') by (apply MT; auto; [intro; qlra|destruct E3 as [[]|[]]; qlra]).
      rewrite E1. cbn [bind]. apply OUT; [auto|apply Gp; qlra|..].
      * apply sp_later. constructor; auto. eapply stz_later; eauto.
      * intros C. constructor; auto. cbn [time]. qlra.
    + apply OUT; auto.
    + apply OUT; [auto|apply Gp; qlra| |auto].
      apply SPC. intros C. destruct (TJ C). exfalso. qlra.
    + apply OUT; auto.
    + assert (K : line j t < line i t) by (destruct (Qc_neq_lt _ _ Eb0); auto; exfalso; qlra).
      assert (Lt : s < t).
      { apply Qcnot_le_lt. intro C. destruct (TJ C). qlra. }
      destruct (meet i j (time i) t) as (t' & E1 & E2 & E3); auto.
      { rewrite (good_at _ _ Gi), (good_flat _ _ (time i) Gj) by qlra. auto. }
      assert (L' : s < t') by (apply MT; auto; [intro; qlra|destruct E3 as [[]|[]]; qlra]).
      rewrite E1. cbn [bind]. apply OUT; [auto|apply Gi'; qlra|..].
      * apply sp_later. constructor; auto. pose proof (stz_later _ _ _ Z Lt). destruct c; auto.
      * intros C. constructor; auto. cbn [time]. qlra.
    + apply OUT; [auto|apply Gp; qlra| |auto]. apply SPC. intros C. destruct (TJ C) as [T1 T2]. rewrite T1, T2 in *. apply CF; auto.
      destruct (Qc_neq_lt _ _ Eb0); auto; exfalso; qlra.
Qed.

Lemma loop_front : forall j z t c, stj v2 j t -> stz z t c -> (time i <= s -> time i <= t) -> (s < time i -> s < t) -> b <= time i ->
  exists z' t' c' q j', seg_and_loop i z t c j = Ok (z', t', c', q :: j') /\ time q <= time i /\ (time i <= s -> time i <= t') /\ (s < time i -> s < t') /\
    stj v2 (q :: j') t' /\ stz z' t' c' /\ (time i < t' \/ t' = t /\ z' = z /\ c' = c).
Proof.
  induction j as [|q j IH]; intros z t c J Z Lt Lt' Lb; [exfalso; eapply stj_nil; eauto|]. cbn [seg_and_loop].
  qcase.
  - destruct (body_front z t c q) as (z1 & c1 & E1 & Z1); auto.
    { destruct J as [[J _]|[_ J]]; [auto|]. right. eapply tailg_head; eauto. }
    { destruct (Qclt_le_dec s (time q)) as [C|C]; [auto|]. right. eapply stj_head; eauto. }
    rewrite E1. cbn [bind].
    destruct (IH z1 (time q) c1) as (z' & t' & c' & q' & j' & R1 & R2 & R3 & R3' & R4 & R5 & R6); auto; try (intros; qlra); try qlra.
    { eapply stj_next; eauto. qlra. }
    exists z', t', c', q', j'. repeat (split; [auto|]). left. destruct R6 as [R6|(-> & _)]; qlra.
  - exists z, t, c, q, j. repeat (split; [auto|]). auto.
Qed.

Lemma segment_front : forall j z t, stj v2 j t -> stz z t false -> (time i <= s -> time i <= t) -> (s < time i -> s < t) -> b <= time i ->
  exists p z' q j', computeSegmentAnd z i t j = Ok (p :: z', q :: j') /\ time p = time i /\ time q <= time i /\
    (exists t', stj v2 (q :: j') t') /\
    (s < time i -> Forall later (p :: z')) /\
    (time i <= s -> good vm p /\ sp vm (time i) z' /\ (time i < t \/ z = [] -> Forall (fun q => time i < time q) z')).
Proof.
  intros j z t J Z L L' Lb. unfold computeSegmentAnd.
  destruct (loop_front j z t false) as (z1 & t1 & c1 & q & j1 & E1 & R1 & R2 & R2' & R3 & R4 & R5); auto.
  rewrite E1. cbn [bind deref].
  destruct (last_front z1 t1 c1 q) as (p & z' & E2 & A1 & A2 & A3); auto.
  { destruct (Qclt_le_dec s (time i)) as [C|C]; [auto|]. right. eapply stj_head; eauto. qlra. }
  rewrite E2. cbn [bind]. exists p, z', q, j1. do 3 (split; [auto|]). split; [eauto|]. split; [auto|].
  intros C. destruct (A3 C) as (B1 & B2 & B3). split; [auto|]. split; [apply (sp_mono _ t1); auto|].
  intros K. apply B3. destruct R5 as [R5|(-> & -> & ->)]; [auto|]. destruct K; auto.
Qed.
End Step.

(** The whole sweep: the front has the smaller of the two values. *)
Lemma partial_front : forall i j z t, stj v1 i t -> stj v2 j t -> stz z t false -> b < t \/ t = b /\ z = [] ->
  exists p z', computePartialAnd z i j b t = Ok (p :: z') /\ time p = b /\ good vm p /\ sp vm b z' /\ Forall (fun q => b < time q) z'.
Proof.
  induction i as [|p i IH]; intros j z t I J Z Lt; [exfalso; eapply stj_nil; eauto|]. cbn [computePartialAnd].
  assert (Hp : s < time p \/ good v1 p) by (destruct (Qclt_le_dec s (time p)) as [C|C]; [auto|right; eapply stj_head; eauto]).
  assert (Tp : s < t \/ time p <= t).
  { destruct I as [[I _]|[_ I]]; [auto|]. right. eapply tailg_head; eauto. }
  assert (CUT : forall p', time p' = b -> (forall u, line p' u = line p u) -> value p' = line p b -> time p <= b ->
    exists r z' q, computeSegmentAnd z p' t j = Ok (r :: z', q) /\ time r = b /\ good vm r /\ sp vm b z' /\ Forall (fun q => b < time q) z').
  { intros p' P1 P2 P3 L. destruct Hp as [Hp|Hp]; [exfalso; qlra|].
    destruct (segment_front p') with (j := j) (z := z) (t := t) as (r & z' & q & j' & E1 & A1 & A2 & A3 & A4 & A5); auto; rewrite ?P1; try qlra.
    - right. split; [|qlra]. split; [qlra|]. rewrite P2, P3. split; [eapply good_flat; eauto; qlra|apply Hp].
    - destruct Lt as [Lt|[-> _]]; qlra.
    - exists r, z', (q :: j'). rewrite P1 in *. destruct (A5 Bs) as (B1 & B2 & B3). repeat (split; [auto|]).
      apply B3. destruct Lt as [Lt|[_ Lt]]; auto. }
  qcase.
  - destruct (segment_front p) with (j := j) (z := z) (t := t) as (r & z' & q & j' & E1 & A1 & A2 & (t' & A3) & A4 & A5); auto; try qlra.
    { destruct Hp; [left; auto|right; split; auto; qlra]. }
    { intros C. destruct Tp; qlra. }
    { intros C. destruct I as [[I _]|[I1 I]]; [auto|]. apply tailg_head in I. destruct I. exfalso. qlra. }
    rewrite E1. cbn [bind deref]. apply IH; [eapply stj_next; eauto|..|left; auto].
    + cbn [tl]. qcase; [rewrite <- Eb0; eapply stj_next; eauto; qlra|]. eapply stj_mono; eauto.
    + destruct (Qclt_le_dec s (time p)) as [C|C]; [left; auto|]. right. split; [auto|]. split; [|discriminate].
      destruct (A5 C) as (B1 & B2 & _). rewrite <- A1. apply (sp_push _ (time p)); auto. rewrite A1. apply Qcle_refl.
  - qcase.
    + destruct (CUT p) as (r & z' & q & E1 & A); auto; [rewrite <- Eb0; symmetry; apply line_at|].
      rewrite E1. cbn [bind]. eauto.
    + destruct (CUT (mkS b (line p b) (deriv p))) as (r & z' & q & E1 & A); auto; [intros; apply line_cut|].
      vline. rewrite E1. cbn [bind]. eauto.
Qed.
End And.

(** ** From the front to the back *)
Lemma tailg_rev : forall b v f g t, time f <= b -> ordered (f :: g) -> Forall (good v) (f :: g) -> Forall (fun q => time q <= t) (f :: g) ->
  tailg b v (rev (f :: g)) t.
Proof.
  intros b v f g. induction g as [|p g IH] using rev_ind; intros t B O G L.
  - cbn [rev app]. inversion G; subst. inversion L; subst. apply tl_last; auto.
  - change (f :: g ++ [p]) with ((f :: g) ++ [p]) in *. rewrite rev_app_distr. cbn [rev app].
    rewrite Forall_app in G, L. destruct G as [G1 G2]. destruct L as [L1 L2]. inversion G2; subst. inversion L2; subst.
    rewrite ordered_app in O. destruct O as (O1 & _ & O2).
    destruct (Qclt_le_dec b (time p)) as [C|C]; [|apply tl_last; auto].
    apply tl_step; auto. apply IH; auto. apply Forall_forall. intros q Q. apply O2; [auto|left; auto].
Qed.

Lemma sp_jl : forall b v f l, time f <= b -> good v f -> sp v (time f) l -> jl b v (rev (f :: l)).
Proof.
  intros b v f l B G (g & k & -> & O & Fg & Ft & Fk).
  change (f :: g ++ k) with ((f :: g) ++ k). rewrite rev_app_distr. apply Forall_rev in Fk.
  induction (rev k) as [|p k' IH]; cbn [app].
  - apply jl_good. apply tailg_rev; [auto|split; auto|auto|]. constructor; [apply G|]. eapply Forall_impl; [|exact Fg]. intros q Q. apply Q.
  - inversion Fk; subst. apply jl_junk; auto.
Qed.

Lemma sp_tail : forall b v f l, time f <= b -> good v f -> sp v (time f) l -> (forall l0 p, l = l0 ++ [p] -> time p <= s) -> tailg b v (rev (f :: l)) s.
Proof.
  intros b v f l B G (g & k & -> & O & Fg & Ft & Fk) H.
  destruct k as [|p k] using rev_ind.
  - rewrite app_nil_r. apply tailg_rev; [auto|split; auto|auto|]. constructor; [apply G|]. eapply Forall_impl; [|exact Fg]. intros q Q. apply Q.
  - exfalso. rewrite Forall_app in Fk. destruct Fk as [_ Fk]. inversion Fk; subst. rewrite app_assoc in H. specialize (H _ _ eq_refl).
    unfold later in *. qlra.
Qed.

Lemma skip_guarded_prefix : forall e (f : smp) l, exists l1 l2, l = l1 ++ l2 /\ skip_guarded e (rev (f :: l)) = Ok (rev (f :: l1)) /\
  (forall l0 p, l1 = l0 ++ [p] -> time p < e).
Proof.
  intros e f l. induction l as [|p l IH] using rev_ind.
  - exists [], []. split; auto. split; [|intros l0 p E; destruct l0; discriminate]. cbn [rev app skip_guarded]. destruct (nleb e (time f)); auto.
  - change (f :: l ++ [p]) with ((f :: l) ++ [p]). rewrite rev_app_distr. cbn [rev app skip_guarded]. qcase.
    + destruct IH as (l1 & l2 & -> & E & H). exists l1, (l2 ++ [p]). split; [rewrite app_assoc; auto|]. split; auto.
      cbn [rev] in E. rewrite E. destruct (rev (l1 ++ l2) ++ [f]) eqn:X; [destruct (rev (l1 ++ l2)); discriminate|auto].
    + exists (l ++ [p]), []. split; [rewrite app_nil_r; auto|]. split.
      * change (f :: l ++ [p]) with ((f :: l) ++ [p]). rewrite rev_app_distr. reflexivity.
      * intros l0 q E'. apply app_inj_tail in E'. destruct E' as [_ <-]. auto.
Qed.

Lemma skip_unguarded_guarded : forall e (l : list smp), (exists q, In q l /\ time q < e) -> skip_unguarded e l = skip_guarded e l.
Proof.
  intros e. induction l as [|p l IH]; intros (q & I & L); [contradiction|]. cbn [skip_unguarded skip_guarded]. qcase; [|auto].
  destruct I as [<-|I]; [exfalso; qlra|]. rewrite IH by eauto. destruct l; [contradiction|auto].
Qed.

Lemma subl_prefix : forall l1 l2, subl l1 (l1 ++ l2).
Proof.
  induction l1 as [|p l1 IH]; intros l2; cbn [app]; [|apply subl_keep; auto].
  induction l2; [constructor|apply subl_skip; auto].
Qed.

(** ** Signals *)
Definition jfront (v : Qc) (z : signal Qc) : Prop :=
  beginTime z <= s /\ s <= endTime z /\ exists f l, samples z = f :: l /\ time f = beginTime z /\ good v f /\ sp v (time f) l.

Lemma jfront_front : forall v z, jfront v z -> front_value z = Ok v.
Proof. intros v z (_ & _ & f & l & E & _ & G & _). unfold front_value. rewrite E. cbn [deref bind]. f_equal. apply G. Qed.

Lemma good_neg : forall v q, good v q -> good (- v) (neg q).
Proof. intros v q (G1 & G2 & G3). split; [rewrite time_neg; auto|]. rewrite line_neg, G3. split; [|auto]. unfold neg. cbn [value]. cbn [nopp NumQc]. rewrite G2. reflexivity. Qed.
Lemma sp_neg : forall v t z, sp v t z -> sp (- v) t (negl z).
Proof.
  intros v t z (g & k & -> & O & Fg & Ft & Fk). exists (negl g), (negl k). split; [apply map_app|]. split; [apply ordered_neg; auto|].
  split; [apply Forall_map; eapply Forall_impl; [|exact Fg]; apply good_neg|].
  split; apply Forall_map; (eapply Forall_impl; [|eassumption]); unfold later; intros q; rewrite time_neg; auto.
Qed.
Lemma jfront_not : forall v z, jfront v z -> jfront (- v) (compute_not z).
Proof.
  intros v z (B & En & f & l & E & T & G & P). split; [exact B|]. split; [exact En|]. exists (neg f), (negl l).
  cbn [compute_not samples beginTime]. rewrite E, time_neg. split; [reflexivity|]. split; [auto|]. split; [apply good_neg; auto|apply sp_neg; auto].
Qed.
Lemma jfront_with_end : forall v z e, jfront v z -> s <= e -> jfront v (with_end z e).
Proof. intros v z e (B & En & H) L. split; [exact B|]. split; [exact L|exact H]. Qed.

Lemma jfront_back : forall v z b e, jfront v z -> beginTime z <= b -> b <= s -> s <= e ->
  exists i, skip_guarded e (rev (samples z)) = Ok i /\ stj b v i e /\ (b < e -> skip_unguarded e (rev (samples z)) = Ok i).
Proof.
  intros v z b e (B & En & f & l & E & T & G & P) Bb Bs Se.
  destruct (skip_guarded_prefix e f l) as (l1 & l2 & -> & E1 & H). exists (rev (f :: l1)). rewrite E, E1. split; auto.
  assert (P1 : sp v (time f) l1) by (eapply sp_sub; [apply subl_prefix|eauto]).
  split.
  - destruct (Qcle_lt_or_eq _ _ Se) as [C|C].
    + left. split; auto. apply sp_jl; auto. qlra.
    + right. split; [qlra|]. rewrite <- C in *. apply sp_tail; auto; [qlra|]. intros l0 p X. specialize (H _ _ X). qlra.
  - intros Be. rewrite skip_unguarded_guarded; auto. exists f. split; [|qlra]. rewrite <- in_rev. left. auto.
Qed.

Lemma back_in : forall A (l : list A) a, back l = Ok a -> In a l.
Proof.
  intros A l a H. destruct l as [|x l] using rev_ind; [discriminate|]. rewrite back_app in H. inversion H; subst. apply in_or_app. right. left. auto.
Qed.

Lemma jfront_simplify : forall v p z b e, time p = b -> b <= s -> s <= e -> good v p -> sp v b z -> Forall (fun q => b < time q) z ->
  exists z', simplify (mkSig (p :: z) b e) = Ok z' /\ beginTime z' = b /\ endTime z' = e /\ jfront v z'.
Proof.
  intros v p z b e T Bs Se G P F.
  destruct (simplify_sub p z b e) as (l' & bk & S1 & S2 & S3); auto. rewrite S3. eexists. split; [reflexivity|].
  split; [reflexivity|]. split; [reflexivity|]. split; [exact Bs|]. split; [exact Se|]. do 2 eexists. split; [reflexivity|]. split; [exact T|]. split; [exact G|].
  apply (sp_sub _ _ _ _ S1) in P. destruct P as (g & k & -> & O & Fg & Ft & Fk). rewrite T. qcase; [|rewrite app_nil_r; exists g, k; auto].
  destruct (Qcle_lt_or_eq _ _ Se) as [C|C].
  - exists g, (k ++ [mkS e (line bk e) 0]). split; [rewrite app_assoc; auto|]. do 3 (split; [auto|]). apply Forall_app. split; auto.
  - destruct k as [|q k] using rev_ind.
    + exists (g ++ [mkS e (line bk e) 0]), []. rewrite !app_nil_r in *. split; auto.
      assert (Gb : good v bk).
      { apply back_in in S2. destruct S2 as [<-|S2]; auto. rewrite Forall_forall in Fg. auto. }
      split.
      * apply ordered_app. split; [auto|]. split; [split; constructor|]. intros a c A C'. destruct C' as [<-|[]]. cbn [time].
        rewrite Forall_forall in Fg. destruct (Fg _ A). qlra.
      * split; [|split; auto].
        -- apply Forall_app. split; auto. constructor; auto. rewrite <- C. split; [cbn [time]; qlra|]. destruct Gb as (G1 & G2 & G3).
           split; [cbn [value]; auto|]. unfold line at 1. cbn [time value deriv]. rewrite G3. ring.
        -- apply Forall_app. split; auto. constructor; auto. cbn [time]. qlra.
    + exfalso. clear IHk. rewrite app_assoc, app_comm_cons, back_app in S2. inversion S2; subst.
      rewrite Forall_app in Fk. destruct Fk as [_ Fk]. inversion Fk; subst. unfold later in *. qlra.
Qed.

Lemma jfront_core : forall v1 v2 b e i j, b <= s -> s <= e -> stj b v1 i e -> stj b v2 j e ->
  exists z, (z <- computePartialAnd [] i j b e ;; simplify (mkSig z b e)) = Ok z /\ beginTime z = b /\ endTime z = e /\ jfront (qmin v1 v2) z.
Proof.
  intros v1 v2 b e i j Bs Se I J.
  destruct (partial_front b v1 v2 Bs i j [] e) as (p & z & E & A1 & A2 & A3 & A4); auto.
  - destruct (Qcle_lt_or_eq _ _ Se) as [C|C]; [left; auto|]. right. split; [qlra|]. split; [apply sp_later; constructor|discriminate].
  - assert (K : b <= e) by qlra. destruct (Qcle_lt_or_eq _ _ K) as [C|C]; auto.
  - rewrite E. cbn [bind]. apply jfront_simplify; auto.
Qed.

Lemma max_le_s : forall a b, a <= s -> b <= s -> qmax a b <= s.
Proof. intros a b H1 H2. destruct (qmax_cases a b) as [[-> ?]|[-> ?]]; auto. Qed.
Lemma le_min_s : forall a b, s <= a -> s <= b -> s <= qmin a b.
Proof. intros a b H1 H2. destruct (qmin_cases a b) as [[-> ?]|[-> ?]]; auto. Qed.
Lemma le_max_both : forall a b : Qc, a <= qmax a b /\ b <= qmax a b.
Proof. intros a b. destruct (qmax_cases a b) as [[-> ?]|[-> ?]]; split; auto; apply Qcle_refl. Qed.

Lemma jfront_and : forall v1 v2 z1 z2, jfront v1 z1 -> jfront v2 z2 ->
  exists z, compute_and z1 z2 = Ok z /\ beginTime z = qmax (beginTime z1) (beginTime z2) /\
    endTime z = qmin (endTime z1) (endTime z2) /\ jfront (qmin v1 v2) z.
Proof.
  intros v1 v2 z1 z2 J1 J2. pose proof J1 as (B1 & E1 & _). pose proof J2 as (B2 & E2 & _).
  destruct (le_max_both (beginTime z1) (beginTime z2)) as [L1 L2].
  pose proof (max_le_s _ _ B1 B2) as Bs. pose proof (le_min_s _ _ E1 E2) as Se.
  unfold compute_and. cbv zeta. rewrite fmax_q, fmin_q.
  destruct (jfront_back _ _ _ _ J1 L1 Bs Se) as (i & I1 & I2 & _). destruct (jfront_back _ _ _ _ J2 L2 Bs Se) as (j & K1 & K2 & _).
  rewrite I1, K1. cbn [bind]. apply jfront_core; auto.
Qed.

(** computeAnd, whose iterators are not guarded. *)
Lemma jfront_And : forall v1 v2 z1 z2, jfront v1 z1 -> jfront v2 z2 ->
  qmax (beginTime z1) (beginTime z2) < qmin (endTime z1) (endTime z2) ->
  exists z, computeAnd z1 z2 = Ok z /\ beginTime z = qmax (beginTime z1) (beginTime z2) /\
    endTime z = qmin (endTime z1) (endTime z2) /\ jfront (qmin v1 v2) z.
Proof.
  intros v1 v2 z1 z2 J1 J2 Lt. pose proof J1 as (B1 & E1 & _). pose proof J2 as (B2 & E2 & _).
  destruct (le_max_both (beginTime z1) (beginTime z2)) as [L1 L2].
  pose proof (max_le_s _ _ B1 B2) as Bs. pose proof (le_min_s _ _ E1 E2) as Se.
  unfold computeAnd. cbv zeta. rewrite fmax_q, fmin_q.
  destruct (jfront_back _ _ _ _ J1 L1 Bs Se) as (i & I1 & I2 & I3). destruct (jfront_back _ _ _ _ J2 L2 Bs Se) as (j & K1 & K2 & K3).
  rewrite I3, K3 by auto. cbn [bind]. apply jfront_core; auto.
Qed.

Lemma jfront_or : forall v1 v2 z1 z2, jfront v1 z1 -> jfront v2 z2 ->
  exists z, compute_or z1 z2 = Ok z /\ beginTime z = qmax (beginTime z1) (beginTime z2) /\
    endTime z = qmin (endTime z1) (endTime z2) /\ jfront (qmax v1 v2) z.
Proof.
  intros v1 v2 z1 z2 J1 J2. rewrite compute_or_neg.
  destruct (jfront_and _ _ _ _ (jfront_not _ _ J1) (jfront_not _ _ J2)) as (z & Z1 & Z2 & Z3 & Z4).
  rewrite Z1. cbn [rmap]. exists (cnot z). split; [reflexivity|]. split; [exact Z2|]. split; [exact Z3|].
  apply jfront_not in Z4. rewrite qmin_neg, Qcopp_involutive in Z4. exact Z4.
Qed.

(** A signal given from [s] on. *)
Lemma prep_sp : forall Q e l v, prepQ true Q e l s -> (forall r, Q s r -> r = v) -> l <> [] ->
  exists f l', l = f :: l' /\ time f = s /\ good v f /\ sp v s l'.
Proof.
  assert (X : forall Q e l t v, prepQ true Q e l t -> s <= t -> (forall r, Q s r -> r = v) -> sp v s l).
  { intros Q e l t v P. induction P as [|p l t t' A1 A2 A3 P IH]; intros L H; [apply sp_later; constructor|].
    destruct (Qcle_lt_or_eq _ _ L) as [C|C].
    - apply sp_later. pose proof (prepQ_times _ _ _ _ _ P) as F. constructor; [unfold later; qlra|]. eapply Forall_impl; [|exact F]. unfold later. cbn beta. intros; qlra.
    - assert (K : s <= t') by qlra. specialize (IH K H). replace s with (time p) by qlra. apply (sp_push _ s); auto; [|qlra].
      assert (Q0 : Q s (line p s)) by (apply A3; [qlra|exact K]). apply H in Q0. split; [qlra|]. split; [|auto]. rewrite <- line_at. rewrite A1, <- C. auto. }
  intros Q e l v P H N. pose proof (X _ _ _ _ v P (Qcle_refl _) H) as SP.
  inversion P as [|p l' t t' A1 A2 A3 A4]; subst; [congruence|].
  exists p, l'. split; [auto|]. split; [auto|].
  assert (Q0 : Q s (line p s)) by (apply A3; [apply Qcle_refl|exact A2]). apply H in Q0. split.
  - split; [qlra|]. split; [|auto]. rewrite <- line_at, A1. auto.
  - destruct (Qcle_lt_or_eq _ _ A2) as [C|C]; [|subst t'; eapply X; eauto; apply Qcle_refl].
    eapply X; eauto.
Qed.

Lemma crep_jfront : forall Q z v, crepQ Q z -> beginTime z = s -> s <= endTime z -> (forall r, Q s r -> r = v) -> jfront v z.
Proof.
  intros Q z v [N P] B En H. rewrite B in P. destruct (prep_sp _ _ _ v P H N) as (f & l & E & T & G & SP).
  split; [rewrite B; apply Qcle_refl|]. split; [exact En|]. exists f, l. rewrite B, T. auto.
Qed.

Lemma pop_back_sub : forall (h : smp -> bool) l, subl (pop_back_while h l) l.
Proof.
  intros h l. destruct (pop_back_spec _ h l) as (l2 & E & _). rewrite E at 2. apply subl_prefix.
Qed.
Lemma pop_back_front : forall (h : smp -> bool) f l, h f = false -> exists l', pop_back_while h (f :: l) = f :: l' /\ subl l' l.
Proof.
  intros h f l H. destruct (pop_back_spec _ h (f :: l)) as (l2 & E & F & _). destruct (pop_back_while h (f :: l)) as [|p l'].
  - cbn [app] in E. rewrite <- E in F. inversion F; subst. congruence.
  - cbn [app] in E. inversion E; subst. exists l'. split; auto. apply subl_prefix.
Qed.

(** resize that keeps the start. *)
Lemma jfront_cut : forall v z k d, jfront v z -> beginTime z = s -> s <= k -> k <= endTime z ->
  exists z', resize z s k d = Ok z' /\ jfront v z' /\ beginTime z' = s /\ endTime z' = k.
Proof.
  intros v z k d (_ & En & f & l & E & T & G & P) B H1 H2.
  unfold resize. rewrite eps_lt by qlra. assert (B0 : nltb k s = false) by (apply nltb_false; auto). rewrite B0.
  unfold resize_front. assert (B1 : nltb s (beginTime z) = false) by (apply nltb_false; qlra). rewrite B1, E. cbn [pop_front_lt].
  assert (B2 : nltb (time f) s = false) by (apply nltb_false; qlra). rewrite B2.
  assert (B3 : nltb s (time f) = false) by (apply nltb_false; qlra). rewrite B3. cbn [bind].
  unfold resize_back. assert (B4 : nltb (endTime z) k = false) by (apply nltb_false; auto). rewrite B4.
  destruct (pop_back_front (fun p => nltb k (time p)) f l) as (l' & E1 & S); [apply nltb_false; qlra|]. rewrite E1. cbn [bind].
  eexists. split; [reflexivity|]. split; [|auto]. split; [apply Qcle_refl|]. split; [exact H1|]. exists f, l'. cbn [samples beginTime].
  split; [auto|]. split; [qlra|]. split; [auto|]. eapply sp_sub; eauto.
Qed.

(** resize that moves the start to 0. *)
Lemma jfront_resize : forall v z d, jfront v z -> beginTime z = s -> 0 <= s ->
  exists z', resize z 0 (endTime z) d = Ok z' /\ jfront v z'.
Proof.
  intros v z d J B H0. destruct (Qcle_lt_or_eq _ _ H0) as [L|L].
  - destruct J as (_ & En & f & l & E & T & G & P).
    unfold resize. rewrite eps_lt by qlra. assert (B0 : nltb (endTime z) 0 = false) by (apply nltb_false; qlra). rewrite B0.
    unfold resize_front. assert (B1 : nltb 0 (beginTime z) = true) by (apply nltb_true; qlra). rewrite B1, E. cbn [deref bind].
    unfold resize_back. assert (B4 : nltb (endTime z) (endTime z) = false) by (apply nltb_false; apply Qcle_refl). rewrite B4.
    destruct (pop_back_front (fun p => nltb (endTime z) (time p)) (mkS 0 (value f) n0) (f :: l)) as (l' & E1 & S); [apply nltb_false; cbn [time]; qlra|].
    rewrite E1. cbn [bind]. eexists. split; [reflexivity|]. split; [exact H0|]. split; [exact En|]. do 2 eexists. split; [reflexivity|].
    split; [reflexivity|]. split.
    + destruct G as (G1 & G2 & G3). split; [exact H0|]. split; [exact G2|]. change n0 with 0. rewrite line0. auto.
    + eapply sp_sub; [exact S|]. cbn [time]. apply (sp_mono _ (time f)); [qlra|]. apply (sp_push _ (time f)); auto. apply Qcle_refl.
  - destruct (jfront_cut v z (endTime z) d J B) as (z' & E & A & _); [destruct J; tauto|apply Qcle_refl|]. rewrite <- L in E. eauto.
Qed.
End Front.
