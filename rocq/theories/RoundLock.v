(** The robustness computed on doubles when comparisons are rounded. *)
From Coq Require Import List Bool String ZArith QArith Qcanon Lia PrimFloat.
From Verif Require Import Num NumFloat Base Signal Robust Transducer QcTac Spec StlSpec TreeProof ReadProof AtomProof ExprPass StepSig StepSpec StepRead StepTree StepClaims StlClaims Double DoubleProof Lock LockTree Rounded.
Import ListNotations.
Local Open Scope Qc_scope.
Local Existing Instance NumF.

(** The end of an atom is that of its left side. *)
Lemma atom_end : forall E w l (op : comparator) r s e v t, trace w (e_data E) -> e_ip E = PREVIOUS -> e_sem E = SPACE -> expression w l -> expression w r ->
  is_leaf l \/ In e (map row_time (e_data E)) \/ s = e -> 0 <= e -> s <= e -> e <= last_time (e_data E) ->
  compute_rob E (ExprPass.prep E l s e) = Ok (v, t) -> endTime (tz t) = e.
Proof.
  intros E w l op r s e v t TR PRV SPC X1 X2 A H0 H1 H2 H.
  destruct (atom_pass_p E w TR PRV SPC l op r s e X1 X2 A H0 H1 H2) as (t' & C & _ & _ & En).
  destruct (expr_pass_p E w TR PRV r s e X2 H0 H1 H2) as (vr & tr & B & _).
  change (ExprPass.prep E (FAtom l op r) s e) with (TAtom (fresh s e) (ExprPass.prep E l s e) op (ExprPass.prep E r s e)) in C.
  cbn [compute_rob] in C. rewrite H in C. cbn [bind] in C. rewrite B in C. cbn [bind] in C. unfold compute_atom in C. rewrite SPC in C.
  destruct (atom_loop _ _ _ _ _) as [z| | | |]; try discriminate. cbn [bind samples] in C. destruct (deref (samples z)) as [p| | | |]; try discriminate.
  cbn [bind] in C. injection C as _ <-. exact En.
Qed.

Section Run.
Variables (k b w : Z) (E : env float) (cs : list (list float -> float)) (n : nat).
Local Notation top := (2 ^ 51 - 1)%Z.
Local Notation E1 := (env_q E).
Local Notation E2 := (env_r E cs).
Hypothesis (Ip : e_ip E = PREVIOUS) (Sem : e_sem E = SPACE) (K : (0 <= k <= 44)%Z) (W0 : (0 <= w)%Z).
Hypothesis (Big : finite (e_M E)).
Hypothesis (Data : Forall (fun row => Forall finite row /\ forall t, nth_error row 0 = Some t -> fixed k b t) (e_data E)).
Hypothesis (B0 : (b <= top)%Z).
Hypothesis TR : trace n (e_data E1).
Local Notation Within := (within_of held (eff E1) (bound_value E1) (e_data E1) (e_M E1)).
Local Notation any := (fun _ : Qc => True).

Lemma psig_r : forall F s e z, psig E2 F s e z -> psig E1 F s e z.
Proof. intros F s e z [A B C D T]. constructor; auto. intros a. rewrite T, rows_r. reflexivity. Qed.

Lemma loop_r : forall op c (F G H : Qc -> Qc) P Q,
  (forall u x y, den x (F u) -> den y (G u) -> den (match op with GREATERTHAN => nsub x y | LESSTHAN => nsub y x end) (H u)) ->
  forall l l', Forall2 (smpR k top P c) l l' -> forall r r', Forall2 (smpR k top Q c) r r' -> forall y z,
  map time l' = map time r' -> map time l' = map time y -> map time l' = map time z ->
  Forall (fun p => value p = F (time p)) l' -> Forall (fun p => value p = G (time p)) r' ->
  Forall (fun p => value p = H (time p)) y -> Forall (fun p => value p = 0) z ->
  forall a a', sigR k top any c a a' -> resR (sigR k top any c) (atom_loop op PREVIOUS a l r) (atom_loop GREATERTHAN PREVIOUS a' y z).
Proof.
  intros op c F G H P Q HD l l' L. induction L as [|p p' l l' S L IH]; intros r r' Rr y z T1 T2 T3 V1 V2 V3 V4 a a' A.
  - destruct y; [|discriminate]. exact A.
  - destruct Rr as [|q q' r r' S' Rr]; [discriminate|]. destruct y as [|y1 y]; [discriminate|]. destruct z as [|z1 z]; [discriminate|].
    cbn [map] in *. injection T1 as T1 T1'. injection T2 as T2 T2'. injection T3 as T3 T3'. 
    apply Forall_cons_iff in V1, V2, V3, V4. destruct V1 as [V1 V1'], V2 as [V2 V2'], V3 as [V3 V3'], V4 as [V4 V4'].
    cbn [atom_loop]. eapply resR_bind; [|intros z' z'' Z; eapply IH; eauto].
    assert (Tm : tm k top c (time p) (time y1)) by (rewrite <- T2; exact (smp_time _ _ _ _ _ _ S)).
    assert (Vl : den (value p) (F (time y1))) by (rewrite <- T2, <- V1; exact (smp_value _ _ _ _ _ _ S)).
    assert (Vr : den (value q) (G (time y1))) by (rewrite <- T2, T1, <- V2; exact (smp_value _ _ _ _ _ _ S')).
    assert (Vy : nsub (value y1) (value z1) = H (time y1)) by (rewrite V3, V4; change (H (time y1) - 0 = H (time y1)); ring).
    specialize (HD _ _ _ Vl Vr). rewrite Vy. destruct op; apply append_lock; auto.
Qed.

Lemma atom_r : forall l op r j g d s s' e e', arithmetic l -> arithmetic r -> plain_numbers E k w l -> plain_numbers E k w r ->
  no_rounding E1 (fml_q l) -> no_rounding E1 (fml_q r) -> expression n (fml_q l) -> expression n (fml_q r) ->
  Within (FAtom (fml_q l) op (fml_q r)) -> nth_error cs j = Some (dif E l op r) ->
  is_leaf (fml_q l) \/ In e' (map row_time (e_data E1)) \/ s' = e' -> 0 <= e' -> s' <= e' -> e' <= last_time (e_data E1) ->
  (b <= lev w g d <= top)%Z -> tm k top (lev w g d) s s' -> tm k top (lev w g d) e e' ->
  resR (oneR k top w g d) (compute_rob E (prepare E (build (FAtom l op r)) s e)) (compute_rob E2 (prepare E2 (build (ratom j)) s' e')).
Proof.
  intros l op r j g d s s' e e' A1 A2 N1 N2 R1 R2 X1 X2 W J AS H0 H1 H2 L S He.
  set (c := lev w g d) in *. assert (C0 : (0 <= c <= top)%Z) by (split; [apply (tm_range _ _ _ _ _ S)|lia]).
  pose proof (dataR k b E Data B0) as DR.
  assert (Top : (top < 2 ^ 51)%Z) by lia.
  destruct (expr_prep k w E K l c s s' e e' A1 N1 R1 C0 S He) as (P & Xl & _). destruct (expr_prep k w E K r c s s' e e' A2 N2 R2 C0 S He) as (Q & Xr & _).
  pose proof (expr_lock k top K Top E E1 b Ip Ip DR c P _ _ ltac:(lia) Xl) as Ll. pose proof (expr_lock k top K Top E E1 b Ip Ip DR c Q _ _ ltac:(lia) Xr) as Lr.
  destruct (expr_pass_p E1 n TR Ip (fml_q l) s' e' X1 H0 H1 H2) as (vl & tl & Cl & Pl & _).
  destruct (expr_pass_p E1 n TR Ip (fml_q r) s' e' X2 H0 H1 H2) as (vr & tr & Cr & Pr & _).
  pose proof (atom_end E1 n _ op _ s' e' _ _ TR Ip Sem X1 X2 AS H0 H1 H2 Cl) as El.
  unfold ExprPass.prep in Cl, Cr. rewrite Cl in Ll. rewrite Cr in Lr.
  destruct (compute_rob E (prepare E (build l) s e)) as [[fl ftl]| | | |] eqn:Fl; try contradiction.
  destruct (compute_rob E (prepare E (build r) s e)) as [[fr ftr]| | | |] eqn:Fr; try contradiction.
  destruct Ll as [_ Ll], Lr as [_ Lr]. cbn [snd] in Ll, Lr. pose proof (n_z _ _ _ _ _ _ (XT_node _ _ _ _ _ _ _ _ Ll)) as Zl. pose proof (n_z _ _ _ _ _ _ (XT_node _ _ _ _ _ _ _ _ Lr)) as Zr.
  fold (tz ftl) in Zl. fold (tz ftr) in Zr. fold (tz tl) in Zl. fold (tz tr) in Zr.
  pose proof (trace_r E cs n TR) as TR2. rewrite <- (last_r E cs) in H2.
  assert (Xj : expression (List.length cs) (FSig "" (Datatypes.S j))) by (assert (j < List.length cs)%nat by (apply nth_error_Some; congruence); cbn; lia).
  destruct (expr_pass_p E2 _ TR2 Ip (FSig "" (Datatypes.S j)) s' e' Xj H0 H1 H2) as (vy & ty & Cy & Py & _).
  destruct (expr_pass_p E2 _ TR2 Ip (FConst None 0) s' e' Logic.I H0 H1 H2) as (vz & tz0 & Cz & Pz & _).
  pose proof (atom_end E2 _ _ GREATERTHAN (FConst None 0) s' e' _ _ TR2 Ip Sem Xj Logic.I (or_introl Logic.I) H0 H1 H2 Cy) as Ey.
  unfold ExprPass.prep in Cy, Cz. apply psig_r in Py. apply psig_r in Pz.
  change (prepare E (build (FAtom l op r)) s e) with (TAtom (with_horizon (reset_node new_node) s e) (prepare E (build l) s e) op (prepare E (build r) s e)).
  change (prepare E2 (build (ratom j)) s' e') with (TAtom (with_horizon (reset_node new_node) s' e') (prepare E2 (build (FSig "" (Datatypes.S j))) s' e') GREATERTHAN (prepare E2 (build (FConst None 0)) s' e')).
  cbn [compute_rob]. rewrite Fl, Fr, Cy. cbn [bind]. rewrite Cz. cbn [bind]. unfold compute_atom. rewrite Ip, Sem.
  change (e_ip E2) with (e_ip E). change (e_sem E2) with (e_sem E). rewrite Ip, Sem.
  pose proof (new_nR k K any c s s' e e' C0 S He) as Nn.
  apply (resR_bind _ _ _ _ (fun a a' => den (fst a) (fst a') /\ sigR k top any c (snd a) (snd a'))).
  - eapply resR_bind.
    { apply (loop_r op c (pval E1 (fml_q l)) (pval E1 (fml_q r)) (pval E2 (FSig "" (Datatypes.S j))) P Q) with (l' := samples (tz tl)) (r' := samples (tz tr)).
      - intros u x y Dx Dy. destruct (ratom_val E cs n TR l op r j u J) as [-> _].
        destruct (atom_within E n TR l op r u X1 X2 W) as [Lo Up].
        eapply (dif_rd E n TR); eauto; try (eapply consts_plain; eauto; fail).
        apply Forall_forall. intros row I. rewrite Forall_forall in Data. apply (Data row I).
      - apply Zl.
      - apply Zr.
      - eapply psig_times; [exact Pl|exact Pr].
      - eapply psig_times; [exact Pl|exact Py].
      - eapply psig_times; [exact Pl|exact Pz].
      - apply Pl.
      - apply Pr.
      - apply Py.
      - eapply Forall_impl; [|exact (ps_val _ _ _ _ _ Pz)]. intros p Hp. cbn beta in Hp. rewrite Hp. apply (ratom_val E cs n TR l op r j (time p) J).
      - exact (n_z _ _ _ _ _ _ Nn). }
    intros z z' Z. cbn [bind].
    assert (Z2 : sigR k top any c (mkSig (samples z) (beginTime z) (endTime (tz ftl))) (mkSig (samples z') (beginTime z') (endTime (tz ty)))).
    { apply mk_sig; [apply Z|apply Z|]. rewrite Ey, <- El. apply Zl. }
    eapply resR_bind; [apply Forall2_deref; apply Z2|]. intros f f' F. split; [exact (smp_value _ _ _ _ _ _ F)|exact Z2].
  - intros [v z] [v' z'] [A B]. split; [exact A|exact B].
Qed.

Lemma prep_r : forall g f f', conv E cs f f' -> forall h s s' e e', logical f -> plain_numbers E k w f -> exact_operands E1 (fml_q f) -> timed (bound_value E1) n (fml_q f) ->
  Within (fml_q f) -> at_samples (bound_value E1) (e_data E1) (fml_q f) s' e' -> covers (bound_value E1) (last_time (e_data E1)) (fml_q f) e' -> 0 <= s' -> s' <= e' ->
  tm k top h s s' -> tm k top h e e' ->
  (h + w * Z.of_nat (nesting f) <= g)%Z -> (b <= g)%Z -> (lev w g (nesting f) <= top)%Z -> (w <= top)%Z ->
  RS k top E E2 w g (nesting f) (prepare E (build f) s e) (prepare E2 (build f') s' e').
Proof.
  intros g f f' H. induction H; intros h s s' e e' A N R F W AS C P0 P1 S He Hg Hb L Lw; cbn [logical] in A; cbn [plain_numbers] in N; cbn [fml_q exact_operands] in R; cbn [fml_q timed] in F; cbn [fml_q at_samples] in AS; cbn [fml_q covers] in C; cbn [nesting] in *;
    assert (Hh : (0 <= h)%Z) by (apply (tm_range _ _ _ _ _ S));
    match type of L with (lev w g ?d <= top)%Z =>
      assert (Gd : (h <= g <= lev w g d)%Z) by (unfold lev; nia);
      assert (Nn : nR k top any (lev w g d) (with_horizon (reset_node new_node) s e) (with_horizon (reset_node new_node) s' e'))
        by (apply (new_nR k K); [lia|eapply tm_le; [exact S|lia]|eapply tm_le; [exact He|lia]]) end.
  - destruct A as [A1 A2], N as [N1 N2], R as [R1 R2], F as [X1 X2].
    apply (S_atom k top E E2 w g 0 (with_horizon (reset_node new_node) s e) (with_horizon (reset_node new_node) s' e')); [exact Nn|].
    apply (atom_r l op r j g 0 s s' e e'); auto; [apply Qcle_trans with s'; auto|lia|eapply tm_le; [exact S|lia]|eapply tm_le; [exact He|lia]].
  - apply (S_not k top E E2 w g _ (with_horizon (reset_node new_node) s e) (with_horizon (reset_node new_node) s' e')); [apply (IHconv h); auto|exact Nn].
  - destruct A as [A1 A2], N as [N1 N2], R as [R1 R2], F as [F1 F2], W as [W1 W2], AS as [AS1 AS2], C as [C1 C2].
    apply (S_and k top E E2 w g _ (nesting l) (nesting r) (with_horizon (reset_node new_node) s e) (with_horizon (reset_node new_node) s' e')); auto; try lia; [apply (IHconv1 h)|apply (IHconv2 h)]; auto; try nia; unfold lev in *; nia.
  - destruct A as [A1 A2], N as [N1 N2], R as [R1 R2], F as [F1 F2], W as [W1 W2], AS as [AS1 AS2], C as [C1 C2].
    apply (S_or k top E E2 w g _ (nesting l) (nesting r) (with_horizon (reset_node new_node) s e) (with_horizon (reset_node new_node) s' e')); auto; try lia; [apply (IHconv1 h)|apply (IHconv2 h)]; auto; try nia; unfold lev in *; nia.
  - destruct A as [A1 A2], N as [N1 N2], R as [R1 R2], F as [F1 F2], W as [W1 W2], AS as [AS1 AS2], C as [C1 C2].
    apply (S_imp k top E E2 w g _ (nesting l) (nesting r) (with_horizon (reset_node new_node) s e) (with_horizon (reset_node new_node) s' e')); auto; try lia; [apply (IHconv1 h)|apply (IHconv2 h)]; auto; try nia; unfold lev in *; nia.
  - destruct N as (N1 & N2 & N3), F as (F1 & F2 & F3). destruct (win k w E i N1 N2 Lw) as [Wa Wb]. assert (Lg : (h + w <= top)%Z) by (clear -Hg Gd L W0; nia).
    assert (Ha : 0 <= s' + bound_value E1 (ibegin (interval_q i))) by qlra. assert (Hc : s' + bound_value E1 (ibegin (interval_q i)) <= e' + bound_value E1 (iend (interval_q i))) by qlra.
    apply (S_ev k top E E2 w g _ (nesting c) (with_horizon (reset_node new_node) s e) (with_horizon (reset_node new_node) s' e')); auto; [|split; auto|eapply tm_le; [exact He|lia]|].
    + apply (IHconv (h + w)%Z); auto; try (apply tm_add; auto); try nia; try exact Ha; try exact Hc. unfold lev in *; nia.
    + apply (empty_lock k top K). lia.
  - destruct N as (N1 & N2 & N3), F as (F1 & F2 & F3). destruct (win k w E i N1 N2 Lw) as [Wa Wb]. assert (Lg : (h + w <= top)%Z) by (clear -Hg Gd L W0; nia).
    assert (Ha : 0 <= s' + bound_value E1 (ibegin (interval_q i))) by qlra. assert (Hc : s' + bound_value E1 (ibegin (interval_q i)) <= e' + bound_value E1 (iend (interval_q i))) by qlra.
    apply (S_alw k top E E2 w g _ (nesting c) (with_horizon (reset_node new_node) s e) (with_horizon (reset_node new_node) s' e')); auto; [|split; auto].
    apply (IHconv (h + w)%Z); auto; try (apply tm_add; auto); try nia; try exact Ha; try exact Hc. unfold lev in *; nia.
Qed.
End Run.

(** C55: the robustness computed on doubles is the exact one, rounded. *)
Lemma rounded_claim : forall k b w n E t f s e, on_binary_times k b w E f s e -> exact_operands (env_q E) (fml_q f) -> skel t = skel (build f) ->
  trace n (e_data (env_q E)) -> timed (bound_value (env_q E)) n (fml_q f) -> 0 <= qval s -> qval s <= qval e ->
  covers (bound_value (env_q E)) (last_time (e_data (env_q E))) (fml_q f) (qval e) ->
  within_of held (eff (env_q E)) (bound_value (env_q E)) (e_data (env_q E)) (e_M (env_q E)) (fml_q f) ->
  at_samples (bound_value (env_q E)) (e_data (env_q E)) (fml_q f) (qval s) (qval e) ->
  apart_ends (bound_value (env_q E)) (e_data (env_q E)) (fml_q f) (qval s) (qval e) ->
  exists v t' q, compute_rob E (prepare E t s e) = Ok (v, t') /\ rounds v q /\
    rob_of held (eff (env_q E)) (bound_value (env_q E)) (e_data (env_q E)) (fml_q f) (qval s) q.
Proof.
  intros k b w n E t f s e [Ip Sem K W0 Size Big Data S He Num Log] X Sk TR F P0 P1 C W AS Ap.
  set (top := (2 ^ 51 - 1)%Z). set (d := nesting f) in *. set (g := (b + w * Z.of_nat d)%Z).
  assert (Top : (top < 2 ^ 51)%Z) by (unfold top; lia).
  assert (B0 : (0 <= b)%Z) by (destruct S as [_ (m & Hm & _)]; lia).
  assert (LV : (2 * (lev w g d + 11 * w) <= top)%Z) by (unfold lev, g, top; change (2 ^ 51)%Z with (2 * 2 ^ 50)%Z; nia).
  assert (L0 : (b <= g <= lev w g d)%Z) by (unfold lev, g; nia).
  assert (Dn : den (e_M E) (e_M (env_q E))) by (split; auto).
  destruct (conv_some E _ n f F [] []) as (f' & Cv). cbn [app] in Cv. rewrite app_nil_r in Cv. set (cs := difs E f) in *.
  assert (Fin : Forall (Forall finite) (e_data E)) by (eapply Forall_impl; [|exact Data]; intros row I; apply I).
  pose proof (logical_consts E k w f Log Num) as Cs.
  assert (RSt : RS k top E (env_r E cs) w g d (prepare E (build f) s e) (prepare (env_r E cs) (build f') (qval s) (qval e))).
  { apply (prep_r k b w E cs n Ip Sem K W0 Big Data ltac:(fold top; lia) TR g f f' Cv b); auto; try (apply tm_fixed; auto; fold top; lia); fold top; fold d; lia. }
  pose proof (pass_lock k top (e_M E) (e_M (env_q E)) K Top Dn E (env_r E cs) w eq_refl eq_refl W0 g d _ _ RSt ltac:(lia)) as R1.
  pose proof (trace_r E cs n TR) as TR2.
  assert (F2 : timed (bound_value (env_r E cs)) (List.length cs) f') by (eapply timed_r; eauto).
  destruct (top_pass (env_r E cs) _ Ip Sem TR2 f' (qval s) (qval e) F2 P0 P1) as (v2 & t2 & g2 & A1 & _ & A3 & A4).
  { rewrite last_r. eapply covers_r; eauto. }
  { eapply (within_r E cs n TR); eauto. }
  { eapply samples_r; eauto. }
  { eapply apart_settled; eauto. eapply ends_r; eauto. }
  destruct (top_pass (env_q E) n Ip Sem TR (fml_q f) (qval s) (qval e) F P0 P1 C W AS) as (v1 & t1 & g1 & Q1 & _ & Q3 & Q4).
  { eapply apart_settled; eauto. }
  unfold ExprPass.prep in A1. rewrite A1 in R1.
  pose proof (compute_rob_sim E _ _ (prepare_sim_skel E _ _ s e Sk)) as SM.
  destruct (compute_rob E (prepare E (build f) s e)) as [[v3 t3]| | | |]; try contradiction.
  destruct (compute_rob E (prepare E t s e)) as [[v4 t4]| | | |]; cbn [same] in SM; try contradiction. destruct SM as [-> _].
  destruct R1 as [V _]. cbn [fst] in V.
  pose proof (Q3 (qval s) (Qcle_refl _) P1) as Y1. pose proof (A3 (qval s) (Qcle_refl _) P1) as Y2.
  exists v3, t4, (g1 (qval s)). split; [reflexivity|]. split; [|exact Y1].
  eapply rd_rounds; [exact V|]. rewrite A4. eapply (rob_rd E cs n TR Fin Big f f' Cv F Cs X W); eauto.
Qed.
