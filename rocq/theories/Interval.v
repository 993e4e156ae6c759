(** What is known of a formula from a prefix of its data: an interval semantics that the
    interval passes are proved to compute. *)
From Coq Require Import List QArith Qcanon Bool String Lia.
From Verif Require Import Num Base Signal QcTac Spec Robust Repr AndProof NegProof SimplifyProof Lip Closed SigProof ResizeProof EvProof PlateauProof BoundedProof TimedProof Transducer StlSpec TreeProof ReadProof AtomProof ExprPass NodeProof TreeRob.
Import ListNotations.
Local Open Scope Qc_scope.

Definition dflt (up : bool) (M : Qc) : Qc := if up then M else - M.

(** The bound at [u]. *)
Fixpoint ib cst (val : bound Qc -> Qc) (data : list (list Qc)) (M : Qc) (up : bool) (f : fml Qc) (s e u v : Qc) : Prop :=
  match f with
  | FNot c => exists w, ib cst val data M (negb up) c s e u w /\ v = - w
  | FAnd l r => exists x y, ib cst val data M up l s e u x /\ ib cst val data M up r s e u y /\ v = qmin x y
  | FOr l r => exists x y, ib cst val data M up l s e u x /\ ib cst val data M up r s e u y /\ v = qmax x y
  | FImp l r => exists x y, ib cst val data M (negb up) l s e u x /\ ib cst val data M up r s e u y /\ v = qmax (- x) y
  | FEv i c =>
      let a := val (ibegin i) in let b := val (iend i) in
      let k := kend val (last_time data) up c (s + a) (e + b) in
      (up = true /\ k - b < s /\ v = M) \/
      ((up = true -> s <= k - b) /\
       exists g, (forall u', u + a <= u' -> u' <= qmin (u + b) k -> ib cst val data M up c (s + a) (e + b) u' (g u')) /\
                 is_sup g (u + a) (qmin (u + b) k) v)
  | FAlw i c =>
      let a := val (ibegin i) in let b := val (iend i) in
      let k := kend val (last_time data) up c (s + a) (e + b) in
      (up = false /\ k - b < s /\ v = - M) \/
      ((up = false -> s <= k - b) /\
       exists g, (forall u', u + a <= u' -> u' <= qmin (u + b) k -> ib cst val data M up c (s + a) (e + b) u' (g u')) /\
                 is_inf g (u + a) (qmin (u + b) k) v)
  | _ => rob cst val data f u v
  end.

Ltac qm := repeat match goal with
  | |- context [qmin ?x ?y] => let Q := fresh in destruct (qmin_cases x y) as [[Q ?]|[Q ?]]; rewrite Q in *; clear Q
  | H : context [qmin ?x ?y] |- _ => let Q := fresh in destruct (qmin_cases x y) as [[Q ?]|[Q ?]]; rewrite Q in *; clear Q
  | |- context [qmax ?x ?y] => let Q := fresh in destruct (qmax_cases x y) as [[Q ?]|[Q ?]]; rewrite Q in *; clear Q
  | H : context [qmax ?x ?y] |- _ => let Q := fresh in destruct (qmax_cases x y) as [[Q ?]|[Q ?]]; rewrite Q in *; clear Q
  end.

Lemma qmin_le_l : forall a b : Qc, qmin a b <= a.
Proof. intros a b. qm; qlra. Qed.
Lemma qmin_le_r : forall a b : Qc, qmin a b <= b.
Proof. intros a b. qm; qlra. Qed.

Lemma kwin_ge : forall st a b s e k, s <= e -> s + a <= k -> s <= kwin st a b s e k.
Proof. intros [] a b s e k H K; unfold kwin; [destruct (Qclt_le_dec (k - b) s)|]; qm; qlra. Qed.
Lemma kwin_le : forall st a b s e k, s <= e -> kwin st a b s e k <= e.
Proof. intros [] a b s e k H; unfold kwin; [destruct (Qclt_le_dec (k - b) s)|]; qm; qlra. Qed.
Lemma kwin_mono : forall st a b s e k k', s <= e -> s + a <= k -> k <= k' -> kwin st a b s e k <= kwin st a b s e k'.
Proof.
  intros [] a b s e k k' H K L; unfold kwin; [destruct (Qclt_le_dec (k - b) s); destruct (Qclt_le_dec (k' - b) s)|]; qm; qlra.
Qed.
Lemma kwin_full : forall st a b s e, a <= b -> s <= e -> kwin st a b s e (e + b) = e.
Proof.
  intros [] a b s e AB H; unfold kwin; [destruct (Qclt_le_dec (e + b - b) s)|]; qm; try qlra.
Qed.

Section Facts.
Variables (cst : option string -> Qc -> Qc) (val : bound Qc -> Qc) (w : nat).

Lemma kend_bounds : forall T f up s e, afrag val w f -> s <= e -> started val T f s ->
  s <= kend val T up f s e /\ kend val T up f s e <= e.
Proof.
  intros T f. induction f; intros up s e F H ST; cbn [afrag started kend] in *; try contradiction; auto.
  - qm; split; qlra.
  - destruct F, ST. destruct (IHf1 up s e); auto. destruct (IHf2 up s e); auto. qm; split; qlra.
  - destruct F, ST. destruct (IHf1 up s e); auto. destruct (IHf2 up s e); auto. qm; split; qlra.
  - destruct F, ST. destruct (IHf1 (negb up) s e); auto. destruct (IHf2 up s e); auto. qm; split; qlra.
  - destruct F as (F1 & F2 & F3). destruct (IHf up (s + val (ibegin i)) (e + val (iend i))); auto; try qlra.
    split; [apply kwin_ge|apply kwin_le]; auto.
  - destruct F as (F1 & F2 & F3). destruct (IHf up (s + val (ibegin i)) (e + val (iend i))); auto; try qlra.
    split; [apply kwin_ge|apply kwin_le]; auto.
Qed.

Lemma kend_mono : forall T T' f up s e, afrag val w f -> s <= e -> started val T f s -> T <= T' ->
  kend val T up f s e <= kend val T' up f s e.
Proof.
  intros T T' f. induction f; intros up s e F H ST L; cbn [afrag started kend] in *; try contradiction; auto.
  - qm; qlra.
  - destruct F, ST. pose proof (IHf1 up s e). pose proof (IHf2 up s e). specialize (H4 ltac:(auto) H ltac:(auto) L). specialize (H5 ltac:(auto) H ltac:(auto) L). qm; qlra.
  - destruct F, ST. pose proof (IHf1 up s e). pose proof (IHf2 up s e). specialize (H4 ltac:(auto) H ltac:(auto) L). specialize (H5 ltac:(auto) H ltac:(auto) L). qm; qlra.
  - destruct F, ST. pose proof (IHf1 (negb up) s e). pose proof (IHf2 up s e). specialize (H4 ltac:(auto) H ltac:(auto) L). specialize (H5 ltac:(auto) H ltac:(auto) L). qm; qlra.
  - destruct F as (F1 & F2 & F3). apply kwin_mono; auto.
    + apply kend_bounds; auto; qlra.
    + apply IHf; auto; qlra.
  - destruct F as (F1 & F2 & F3). apply kwin_mono; auto.
    + apply kend_bounds; auto; qlra.
    + apply IHf; auto; qlra.
Qed.

Lemma kend_full : forall T f up s e, afrag val w f -> s <= e -> covers val T f e -> kend val T up f s e = e.
Proof.
  intros T f. induction f; intros up s e F H C; cbn [afrag covers kend] in *; try contradiction; auto.
  - apply qmin_l; auto.
  - destruct F, C. rewrite IHf1, IHf2 by auto. apply qmin_same.
  - destruct F, C. rewrite IHf1, IHf2 by auto. apply qmin_same.
  - destruct F, C. rewrite IHf1, IHf2 by auto. apply qmin_same.
  - destruct F as (F1 & F2 & F3). rewrite IHf by (auto; qlra). apply kwin_full; auto.
  - destruct F as (F1 & F2 & F3). rewrite IHf by (auto; qlra). apply kwin_full; auto.
Qed.

Lemma iz_add : forall k j, Q2Qc (inject_Z (k + j)) = Q2Qc (inject_Z k) + Q2Qc (inject_Z j).
Proof. intros. apply Qc_is_canon. unfold Qcplus, Q2Qc. cbn [this]. rewrite !Qred_correct. rewrite inject_Z_plus; reflexivity. Qed.
Lemma iz_opp : forall k, Q2Qc (inject_Z (- k)) = - Q2Qc (inject_Z k).
Proof. intros. apply Qc_is_canon. unfold Qcopp, Q2Qc. cbn [this]. rewrite !Qred_correct. rewrite inject_Z_opp; reflexivity. Qed.
Lemma iz_le : forall k j, (k <= j)%Z -> Q2Qc (inject_Z k) <= Q2Qc (inject_Z j).
Proof. intros. unfold Qcle, Q2Qc. cbn [this]. rewrite !Qred_correct. rewrite <- Zle_Qle; auto. Qed.
Lemma grid_add : forall d x y, on_grid d x -> on_grid d y -> on_grid d (x + y).
Proof. intros d x y [k ->] [j ->]. exists (k + j)%Z. rewrite iz_add. ring. Qed.
Lemma grid_sub : forall d x y, on_grid d x -> on_grid d y -> on_grid d (x - y).
Proof. intros d x y [k ->] [j ->]. exists (k + - j)%Z. rewrite iz_add, iz_opp. ring. Qed.
Lemma grid_qmin : forall d x y, on_grid d x -> on_grid d y -> on_grid d (qmin x y).
Proof. intros d x y X Y. qm; auto. Qed.

Lemma grid_gap : forall d x y, 0 < d -> on_grid d x -> on_grid d y -> x < y -> x <= y - d.
Proof.
  intros d x y P [k ->] [j ->] L.
  assert (KJ : (k < j)%Z).
  { destruct (Z_lt_le_dec k j) as [|C]; auto. exfalso.
    assert (X : Q2Qc (inject_Z j) <= Q2Qc (inject_Z k)).
    { apply iz_le; auto. }
    pose proof (Qcmult_le_compat_r _ _ _ X (Qclt_le_weak _ _ P)). qlra. }
  assert (X : Q2Qc (inject_Z k) + 1 <= Q2Qc (inject_Z j)).
  { change 1 with (Q2Qc (inject_Z 1)). rewrite <- iz_add. apply iz_le. lia. }
  pose proof (Qcmult_le_compat_r _ _ _ X (Qclt_le_weak _ _ P)) as Y.
  replace ((Q2Qc (inject_Z k) + 1) * d) with (Q2Qc (inject_Z k) * d + d) in Y by ring. qlra.
Qed.

Lemma kend_grid : forall d T f up s e, afrag val w f -> gridded val d f -> on_grid d s -> on_grid d e -> on_grid d T ->
  on_grid d (kend val T up f s e).
Proof.
  intros d T f. induction f; intros up s e F G Gs Ge GT; cbn [afrag gridded kend] in *; try contradiction; auto.
  - apply grid_qmin; auto.
  - destruct F, G. apply grid_qmin; auto.
  - destruct F, G. apply grid_qmin; auto.
  - destruct F, G. apply grid_qmin; auto.
  - destruct F as (F1 & F2 & F3), G as (G1 & G2 & G3).
    assert (K : on_grid d (kend val T up f (s + val (ibegin i)) (e + val (iend i)))) by (apply IHf; auto; apply grid_add; auto).
    unfold kwin. destruct up; [destruct (Qclt_le_dec _ _); auto|]; apply grid_qmin; auto; apply grid_sub; auto.
  - destruct F as (F1 & F2 & F3), G as (G1 & G2 & G3).
    assert (K : on_grid d (kend val T up f (s + val (ibegin i)) (e + val (iend i)))) by (apply IHf; auto; apply grid_add; auto).
    unfold kwin. destruct up; cbn [negb]; [|destruct (Qclt_le_dec _ _); auto]; apply grid_qmin; auto; apply grid_sub; auto.
Qed.

(** The data does not stop within [neps] below a time where a bound becomes known. *)
Fixpoint clear (T : Qc) (up : bool) (f : fml Qc) (s e : Qc) : Prop :=
  match f with
  | FNot c => clear T (negb up) c s e
  | FAnd l r | FOr l r => clear T up l s e /\ clear T up r s e
  | FImp l r => clear T (negb up) l s e /\ clear T up r s e
  | FEv i c =>
      let k := kend val T up c (s + val (ibegin i)) (e + val (iend i)) in
      (up = true -> k - val (iend i) < s -> k - val (iend i) < s - neps) /\
      clear T up c (s + val (ibegin i)) (e + val (iend i))
  | FAlw i c =>
      let k := kend val T up c (s + val (ibegin i)) (e + val (iend i)) in
      (up = false -> k - val (iend i) < s -> k - val (iend i) < s - neps) /\
      clear T up c (s + val (ibegin i)) (e + val (iend i))
  | _ => True
  end.

Lemma clear_grid : forall d T f up s e, neps < d -> afrag val w f -> gridded val d f -> on_grid d s -> on_grid d e -> on_grid d T ->
  clear T up f s e.
Proof.
  intros d T f. induction f; intros up s e DP F G Gs Ge GT; cbn [afrag gridded clear] in *; try contradiction; auto.
  - destruct F, G; auto.
  - destruct F, G; auto.
  - destruct F, G; auto.
  - destruct F as (F1 & F2 & F3), G as (G1 & G2 & G3).
    assert (K : on_grid d (kend val T up f (s + val (ibegin i)) (e + val (iend i)))) by (apply kend_grid; auto; apply grid_add; auto).
    split; [|apply IHf; auto; apply grid_add; auto]. intros _ L. apply (grid_gap d) in L; auto; [qlra|reflexivity||(eapply Qclt_trans; [|exact DP]; reflexivity)|apply grid_sub; auto].
  - destruct F as (F1 & F2 & F3), G as (G1 & G2 & G3).
    assert (K : on_grid d (kend val T up f (s + val (ibegin i)) (e + val (iend i)))) by (apply kend_grid; auto; apply grid_add; auto).
    split; [|apply IHf; auto; apply grid_add; auto]. intros _ L. apply (grid_gap d) in L; auto; [qlra|eapply Qclt_trans; [|exact DP]; reflexivity|apply grid_sub; auto].
Qed.

Lemma clear_full : forall T f up s e, afrag val w f -> s <= e -> covers val T f e -> clear T up f s e.
Proof.
  intros T f. induction f; intros up s e F H C; cbn [afrag covers clear] in *; try contradiction; auto.
  - destruct F, C; auto.
  - destruct F, C; auto.
  - destruct F, C; auto.
  - destruct F as (F1 & F2 & F3). split; [|apply IHf; auto; qlra]. intros _. rewrite kend_full by (auto; qlra). intros L. exfalso. qlra.
  - destruct F as (F1 & F2 & F3). split; [|apply IHf; auto; qlra]. intros _. rewrite kend_full by (auto; qlra). intros L. exfalso. qlra.
Qed.

Section Data.
Variable data : list (list Qc).
Variable M : Qc.
Notation T := (last_time data).

Lemma ib_within : forall f up s e u v, afrag val w f -> s <= e -> started val T f s -> within cst data M f -> 0 <= M ->
  s <= u -> u <= kend val T up f s e -> ib cst val data M up f s e u v -> - M <= v /\ v <= M.
Proof.
  induction f; intros up s e u x F H ST W HM U1 U2 I; cbn [afrag started within] in *; try contradiction.
  - apply (W u). exact I.
  - destruct I as (y & I & ->). destruct (IHf (negb up) s e u y); auto. split; qlra.
  - destruct I as (y & z & I1 & I2 & ->). cbn [kend] in U2.
    assert (U3 := qmin_le_l (kend val T up f1 s e) (kend val T up f2 s e)). assert (U4 := qmin_le_r (kend val T up f1 s e) (kend val T up f2 s e)).
    destruct (IHf1 up s e u y); try tauto; try qlra. destruct (IHf2 up s e u z); try tauto; try qlra. qm; split; qlra.
  - destruct I as (y & z & I1 & I2 & ->). cbn [kend] in U2.
    assert (U3 := qmin_le_l (kend val T up f1 s e) (kend val T up f2 s e)). assert (U4 := qmin_le_r (kend val T up f1 s e) (kend val T up f2 s e)).
    destruct (IHf1 up s e u y); try tauto; try qlra. destruct (IHf2 up s e u z); try tauto; try qlra. qm; split; qlra.
  - destruct I as (y & z & I1 & I2 & ->). cbn [kend] in U2.
    assert (U3 := qmin_le_l (kend val T (negb up) f1 s e) (kend val T up f2 s e)). assert (U4 := qmin_le_r (kend val T (negb up) f1 s e) (kend val T up f2 s e)).
    destruct (IHf1 (negb up) s e u y); try tauto; try qlra. destruct (IHf2 up s e u z); try tauto; try qlra. qm; split; qlra.
  - destruct F as (F1 & F2 & F3). cbn [ib] in I. destruct (kend_bounds T f up (s + val (ibegin i)) (e + val (iend i))) as [K1 K2]; auto; try qlra.
    destruct I as [(_ & _ & ->)|(I1 & g & I2 & I3)]; [split; qlra|].
    cbn [kend] in U2. remember (kend val T up f (s + val (ibegin i)) (e + val (iend i))) as k eqn:Hk.
    assert (U3 : u + val (ibegin i) <= qmin (u + val (iend i)) k).
    { unfold kwin in U2. destruct up; [specialize (I1 eq_refl); destruct (Qclt_le_dec (k - val (iend i)) s); [qlra|]|]; qm; qlra. }
    apply (is_ext_within true g (u + val (ibegin i)) (qmin (u + val (iend i)) k)); auto.
    intros u' V1 V2. apply (IHf up (s + val (ibegin i)) (e + val (iend i)) u'); auto; try qlra. rewrite <- Hk. qm; qlra.
  - destruct F as (F1 & F2 & F3). cbn [ib] in I. destruct (kend_bounds T f up (s + val (ibegin i)) (e + val (iend i))) as [K1 K2]; auto; try qlra.
    destruct I as [(_ & _ & ->)|(I1 & g & I2 & I3)]; [split; qlra|].
    cbn [kend] in U2. remember (kend val T up f (s + val (ibegin i)) (e + val (iend i))) as k eqn:Hk.
    assert (U3 : u + val (ibegin i) <= qmin (u + val (iend i)) k).
    { unfold kwin in U2. destruct up; cbn [negb] in U2; [|specialize (I1 eq_refl); destruct (Qclt_le_dec (k - val (iend i)) s); [qlra|]]; qm; qlra. }
    apply (is_ext_within false g (u + val (ibegin i)) (qmin (u + val (iend i)) k)); auto.
    intros u' V1 V2. apply (IHf up (s + val (ibegin i)) (e + val (iend i)) u'); auto; try qlra. rewrite <- Hk. qm; qlra.
Qed.

(** On complete data the bounds are the robustness. *)
Lemma ib_full : forall f up s e u v, afrag val w f -> s <= e -> covers val T f e -> s <= u -> u <= e ->
  ib cst val data M up f s e u v -> rob cst val data f u v.
Proof.
  induction f; intros up s e u x F H C U1 U2 I; cbn [afrag covers] in *; try contradiction.
  - exact I.
  - destruct I as (y & I & ->). exists y. split; [|reflexivity]. eapply (IHf _ s e); eauto.
  - destruct I as (y & z & I1 & I2 & ->). destruct F, C. exists y, z. split; [eapply (IHf1 _ s e); eauto|]. split; [eapply (IHf2 _ s e); eauto|reflexivity].
  - destruct I as (y & z & I1 & I2 & ->). destruct F, C. exists y, z. split; [eapply (IHf1 _ s e); eauto|]. split; [eapply (IHf2 _ s e); eauto|reflexivity].
  - destruct I as (y & z & I1 & I2 & ->). destruct F, C. exists y, z. split; [eapply (IHf1 _ s e); eauto|]. split; [eapply (IHf2 _ s e); eauto|reflexivity].
  - destruct F as (F1 & F2 & F3). cbn [ib] in I. rewrite kend_full in I by (auto; qlra).
    destruct I as [(_ & L & _)|(I1 & g & I2 & I3)]; [exfalso; qlra|].
    rewrite qmin_l in * by qlra. exists g. split; auto. intros u' V1 V2. apply (IHf up (s + val (ibegin i)) (e + val (iend i))); auto; qlra.
  - destruct F as (F1 & F2 & F3). cbn [ib] in I. rewrite kend_full in I by (auto; qlra).
    destruct I as [(_ & L & _)|(I1 & g & I2 & I3)]; [exfalso; qlra|].
    rewrite qmin_l in * by qlra. exists g. split; auto. intros u' V1 V2. apply (IHf up (s + val (ibegin i)) (e + val (iend i))); auto; qlra.
Qed.

Lemma full_ib : forall f up s e u v, afrag val w f -> s <= e -> covers val T f e -> s <= u -> u <= e ->
  rob cst val data f u v -> ib cst val data M up f s e u v.
Proof.
  induction f; intros up s e u x F H C U1 U2 I; cbn [afrag covers] in *; try contradiction.
  - exact I.
  - destruct I as (y & I & ->). exists y. split; [|reflexivity]. apply IHf; auto.
  - destruct I as (y & z & I1 & I2 & ->). destruct F, C. exists y, z. split; [apply IHf1; auto|]. split; [apply IHf2; auto|reflexivity].
  - destruct I as (y & z & I1 & I2 & ->). destruct F, C. exists y, z. split; [apply IHf1; auto|]. split; [apply IHf2; auto|reflexivity].
  - destruct I as (y & z & I1 & I2 & ->). destruct F, C. exists y, z. split; [apply IHf1; auto|]. split; [apply IHf2; auto|reflexivity].
  - destruct F as (F1 & F2 & F3). cbn [ib]. rewrite kend_full by (auto; qlra). right. split; [intros; qlra|].
    rewrite qmin_l by qlra. destruct I as (g & I1 & I2). exists g. split; auto. intros u' V1 V2. apply IHf; auto; try qlra.
  - destruct F as (F1 & F2 & F3). cbn [ib]. rewrite kend_full by (auto; qlra). right. split; [intros; qlra|].
    rewrite qmin_l by qlra. destruct I as (g & I1 & I2). exists g. split; auto. intros u' V1 V2. apply IHf; auto; try qlra.
Qed.
End Data.

Definition sharper (up : bool) (v v' : Qc) : Prop := if up then v' <= v else v <= v'.

(** More data sharpens the bounds. *)
Lemma ib_mono : forall d1 d2 M, let T1 := last_time d1 in let T2 := last_time d2 in T1 <= T2 ->
  (forall f u v v', expression w f -> u <= T1 -> expr cst d1 f u v -> expr cst d2 f u v' -> v = v') ->
  forall f up s e u v v', afrag val w f -> s <= e -> started val T1 f s -> within cst d2 M f -> 0 <= M ->
  s <= u -> u <= kend val T1 up f s e -> ib cst val d1 M up f s e u v -> ib cst val d2 M up f s e u v' -> sharper up v v'.
Proof.
  intros d1 d2 M T1 T2 HT OP. subst T1 T2.
  assert (ST12 : forall f s, afrag val w f -> started val (last_time d1) f s -> started val (last_time d2) f s).
  { induction f; intros s F S; cbn [afrag started] in *; try contradiction; auto; try tauto; try qlra;
      try (destruct F, S; split; auto); destruct F as (? & ? & ?); auto. }
  induction f; intros up s e u x x' F H ST W HM U1 U2 I J.
  1-6: contradiction.
  - cbn [afrag] in F. destruct F as ((Sl & Sr) & _). assert (UT : u <= last_time d1) by (cbn [kend] in U2; qm; qlra).
    assert (X : x = x').
    { cbn [ib rob] in I, J. destruct op; destruct I as (a & b & A & B & ->); destruct J as (a' & b' & A' & B' & ->);
        rewrite (OP f1 u a a' Sl UT A A'), (OP f2 u b b' Sr UT B B'); reflexivity. }
    subst x'. destruct up; cbn; apply Qcle_refl.
  - destruct I as (y & I & ->). destruct J as (y' & J & ->).
    pose proof (IHf (negb up) s e u y y' F H ST W HM U1 U2 I J) as X. destruct up; cbn in *; qlra.
  - destruct F as [F1 F2], ST as [S1 S2], W as [W1 W2]. cbn [kend] in U2.
    assert (U3 := qmin_le_l (kend val (last_time d1) up f1 s e) (kend val (last_time d1) up f2 s e)).
    assert (U4 := qmin_le_r (kend val (last_time d1) up f1 s e) (kend val (last_time d1) up f2 s e)).
    destruct I as (y & z & I1 & I2 & ->). destruct J as (y' & z' & J1 & J2 & ->).
    pose proof (IHf1 up s e u y y' F1 H S1 W1 HM U1 ltac:(qlra) I1 J1) as X.
    pose proof (IHf2 up s e u z z' F2 H S2 W2 HM U1 ltac:(qlra) I2 J2) as Y.
    destruct up; cbn [sharper] in *; clear U2 U3 U4; qm; qlra.
  - destruct F as [F1 F2], ST as [S1 S2], W as [W1 W2]. cbn [kend] in U2.
    assert (U3 := qmin_le_l (kend val (last_time d1) up f1 s e) (kend val (last_time d1) up f2 s e)).
    assert (U4 := qmin_le_r (kend val (last_time d1) up f1 s e) (kend val (last_time d1) up f2 s e)).
    destruct I as (y & z & I1 & I2 & ->). destruct J as (y' & z' & J1 & J2 & ->).
    pose proof (IHf1 up s e u y y' F1 H S1 W1 HM U1 ltac:(qlra) I1 J1) as X.
    pose proof (IHf2 up s e u z z' F2 H S2 W2 HM U1 ltac:(qlra) I2 J2) as Y.
    destruct up; cbn [sharper] in *; clear U2 U3 U4; qm; qlra.
  - destruct F as [F1 F2], ST as [S1 S2], W as [W1 W2]. cbn [kend] in U2.
    assert (U3 := qmin_le_l (kend val (last_time d1) (negb up) f1 s e) (kend val (last_time d1) up f2 s e)).
    assert (U4 := qmin_le_r (kend val (last_time d1) (negb up) f1 s e) (kend val (last_time d1) up f2 s e)).
    destruct I as (y & z & I1 & I2 & ->). destruct J as (y' & z' & J1 & J2 & ->).
    pose proof (IHf1 (negb up) s e u y y' F1 H S1 W1 HM U1 ltac:(qlra) I1 J1) as X.
    pose proof (IHf2 up s e u z z' F2 H S2 W2 HM U1 ltac:(qlra) I2 J2) as Y.
    destruct up; cbn [sharper negb] in *; clear U2 U3 U4; qm; qlra.
  - pose proof F as (F1 & F2 & F3). cbn [started within kend] in *.
    pose proof (kend_bounds (last_time d1) f up (s + val (ibegin i)) (e + val (iend i)) F3 ltac:(qlra) ST) as [K1 K2].
    pose proof (kend_mono (last_time d1) (last_time d2) f up (s + val (ibegin i)) (e + val (iend i)) F3 ltac:(qlra) ST HT) as K3.
    assert (UK : u <= kend val (last_time d2) up (FEv i f) s e).
    { cbn [kend]. eapply Qcle_trans; [exact U2|]. apply kwin_mono; auto. }
    pose proof (ib_within d2 M (FEv i f) up s e u x' F H (ST12 f _ F3 ST) W HM U1 UK J) as J0. clear UK.
    cbn [ib] in I, J.
    remember (kend val (last_time d1) up f (s + val (ibegin i)) (e + val (iend i))) as k eqn:Hk.
    remember (kend val (last_time d2) up f (s + val (ibegin i)) (e + val (iend i))) as k' eqn:Hk'.
    destruct I as [(-> & L & ->)|(I1 & g & I2 & I3)]; [cbn; tauto|].
    destruct J as [(-> & L & ->)|(J1 & g' & J2 & J3)]; [specialize (I1 eq_refl); exfalso; qlra|].
    destruct up; cbn [sharper].
    + specialize (I1 eq_refl). unfold kwin in U2. destruct (Qclt_le_dec (k - val (iend i)) s) as [C|C]; [exfalso; qlra|].
      assert (UK : u + val (iend i) <= k) by (qm; qlra). rewrite !qmin_l in * by qlra.
      destruct J3 as [_ J3]. apply J3. intros u' V1 V2. destruct I3 as [I3 _]. eapply Qcle_trans; [|apply (I3 u'); auto].
      apply (IHf true (s + val (ibegin i)) (e + val (iend i)) u'); auto; try qlra.
    + destruct I3 as [_ I3]. apply I3. intros u' V1 V2. destruct J3 as [J3 _].
      assert (V3 : u' <= qmin (u + val (iend i)) k') by (qm; qlra). assert (V4 : u' <= k) by (qm; qlra).
      eapply Qcle_trans; [|apply (J3 u'); auto].
      apply (IHf false (s + val (ibegin i)) (e + val (iend i)) u'); auto; try qlra.
  - pose proof F as (F1 & F2 & F3). cbn [started within kend] in *.
    pose proof (kend_bounds (last_time d1) f up (s + val (ibegin i)) (e + val (iend i)) F3 ltac:(qlra) ST) as [K1 K2].
    pose proof (kend_mono (last_time d1) (last_time d2) f up (s + val (ibegin i)) (e + val (iend i)) F3 ltac:(qlra) ST HT) as K3.
    assert (UK : u <= kend val (last_time d2) up (FAlw i f) s e).
    { cbn [kend]. eapply Qcle_trans; [exact U2|]. apply kwin_mono; auto. }
    pose proof (ib_within d2 M (FAlw i f) up s e u x' F H (ST12 f _ F3 ST) W HM U1 UK J) as J0. clear UK.
    cbn [ib] in I, J.
    remember (kend val (last_time d1) up f (s + val (ibegin i)) (e + val (iend i))) as k eqn:Hk.
    remember (kend val (last_time d2) up f (s + val (ibegin i)) (e + val (iend i))) as k' eqn:Hk'.
    destruct I as [(-> & L & ->)|(I1 & g & I2 & I3)]; [cbn; tauto|].
    destruct J as [(-> & L & ->)|(J1 & g' & J2 & J3)]; [specialize (I1 eq_refl); exfalso; qlra|].
    destruct up; cbn [sharper negb] in *.
    + destruct I3 as [_ I3]. apply I3. intros u' V1 V2. destruct J3 as [J3 _].
      assert (V3 : u' <= qmin (u + val (iend i)) k') by (qm; qlra). assert (V4 : u' <= k) by (qm; qlra).
      eapply Qcle_trans; [apply (J3 u'); auto|].
      apply (IHf true (s + val (ibegin i)) (e + val (iend i)) u'); auto; try qlra.
    + specialize (I1 eq_refl). unfold kwin in U2. destruct (Qclt_le_dec (k - val (iend i)) s) as [C|C]; [exfalso; qlra|].
      assert (UK : u + val (iend i) <= k) by (qm; qlra). rewrite !qmin_l in * by qlra.
      destruct J3 as [_ J3]. apply J3. intros u' V1 V2. destruct I3 as [I3 _]. eapply Qcle_trans; [apply (I3 u'); auto|].
      apply (IHf false (s + val (ibegin i)) (e + val (iend i)) u'); auto; try qlra.
  - contradiction.
Qed.
End Facts.
