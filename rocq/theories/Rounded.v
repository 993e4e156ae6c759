(** Formulas over held signals whose comparisons are rounded: the same formula over signals
    that hold the rounded differences. *)
From Coq Require Import List Bool String ZArith QArith Qcanon Lia Classical PrimFloat.
From Verif Require Import Num NumFloat Base Signal Robust Transducer QcTac Spec Lip StlSpec TreeProof ReadProof AtomProof ExprPass StepSpec StepRead StepTree StepClaims Double DoubleProof LockTree.
Import ListNotations.
Local Open Scope Qc_scope.
Local Existing Instance NumF.

(** ** The row in force *)
Section Pick.
Variables (A : Type) (tmf : A -> Qc) (a0 : A).
Fixpoint pick (D : list A) (u : Qc) : A :=
  match D with
  | nil => a0
  | r :: D' => match D' with nil => r | r2 :: _ => if Qclt_le_dec u (tmf r2) then r else pick D' u end
  end.
Lemma hold_pick : forall g D u, D <> [] -> hold (map (fun r => (tmf r, g r)) D) u = g (pick D u).
Proof.
  intros g. induction D as [|r D IH]; intros u N; [congruence|]. destruct D as [|r2 D]; [reflexivity|].
  cbn [map]. rewrite hold_cons. cbn [pick]. destruct (Qclt_le_dec u (tmf r2)); [reflexivity|]. apply IH. discriminate.
Qed.
Lemma pick_in : forall D u, D <> [] -> In (pick D u) D.
Proof.
  induction D as [|r D IH]; intros u N; [congruence|]. destruct D as [|r2 D]; [left; reflexivity|].
  cbn [pick]. destruct (Qclt_le_dec u (tmf r2)); [left; reflexivity|right]. apply IH. discriminate.
Qed.
End Pick.

(** ** The robustness takes finitely many values, and reaches its bounds *)
Lemma just_below : forall (L : list Qc) v, exists w, w < v /\ forall x, In x L -> x < v -> x <= w.
Proof.
  induction L as [|y L IH]; intros v.
  - exists (v - 1). split; [qlra|]. intros x [].
  - destruct (IH v) as (w & W & H). destruct (Qclt_le_dec y v) as [C|C].
    + destruct (Qclt_le_dec w y) as [C'|C']; [exists y|exists w]; (split; [auto|]); intros x [<-|I] X; try qlra; specialize (H x I X); qlra.
    + exists w. split; auto. intros x [<-|I] X; [qlra|auto].
Qed.
Lemma sup_reached : forall (L : list Qc) g a b v, is_sup g a b v -> (forall u, a <= u -> u <= b -> In (g u) L) ->
  exists u, a <= u /\ u <= b /\ g u = v.
Proof.
  intros L g a b v [U S] I. apply NNPP. intros N. destruct (just_below L v) as (w & W & H).
  assert (v <= w); [|qlra]. apply S. intros u U1 U2. apply H; [apply I; auto|]. pose proof (U u U1 U2) as K.
  destruct (Qcle_lt_or_eq _ _ K) as [K'|K']; [exact K'|]. exfalso. apply N. exists u. auto.
Qed.
Lemma inf_reached : forall (L : list Qc) g a b v, is_inf g a b v -> (forall u, a <= u -> u <= b -> In (g u) L) ->
  exists u, a <= u /\ u <= b /\ g u = v.
Proof.
  intros L g a b v [U S] I. destruct (sup_reached (map Qcopp L) (fun u => - g u) a b (- v)) as (u & U1 & U2 & G).
  - split; [intros u U1 U2; specialize (U u U1 U2); qlra|]. intros w W. assert (- w <= v); [|qlra]. apply S. intros u U1 U2. specialize (W u U1 U2). qlra.
  - intros u U1 U2. apply in_map. auto.
  - exists u. split; auto. split; auto. qlra.
Qed.

Section Values.
Variables (E : env Qc) (w : nat).
Hypothesis TR : trace w (e_data E).
Notation Rob := (rob_of held (eff E) (bound_value E) (e_data E)).

Fixpoint at_row (f : fml Qc) (row : list Qc) : Qc :=
  match f with
  | FSig _ c => nth c row 0
  | FConst p v => eff E p v
  | FAbs c => qmax (at_row c row) (- at_row c row)
  | FPlus l r => at_row l row + at_row r row
  | FMinus l r => at_row l row - at_row r row
  | FMult l r => at_row l row * at_row r row
  | _ => 0
  end.
Lemma pval_row : forall f u, expression w f -> pval E f u = at_row f (pick _ row_time [] (e_data E) u).
Proof.
  destruct TR as (N & _ & _). induction f; intros u X; cbn [expression] in X; try contradiction; cbn [pval at_row leaf_points].
  - unfold column. rewrite (hold_pick _ row_time [] (fun r => nth col r 0)) by auto. reflexivity.
  - unfold level. rewrite (hold_pick _ row_time [] (fun _ => eff E p v)) by auto. reflexivity.
  - rewrite IHf by auto. reflexivity.
  - rewrite IHf1, IHf2 by tauto. reflexivity.
  - rewrite IHf1, IHf2 by tauto. reflexivity.
  - rewrite IHf1, IHf2 by tauto. reflexivity.
Qed.

Lemma rob_finite : forall f, timed (bound_value E) w f -> exists L, forall t v, Rob f t v -> In v L.
Proof.
  induction f; intros F; cbn [timed] in F; try contradiction.
  - destruct F as [X1 X2]. exists (map (fun row => atom_op op (at_row f1 row) (at_row f2 row)) (e_data E)). intros t v R.
    apply (atom_rob_p E w TR) in R; auto. subst v. unfold pdiff. rewrite !pval_row by auto.
    apply (in_map (fun row => atom_op op (at_row f1 row) (at_row f2 row))). apply pick_in. apply TR.
  - destruct (IHf F) as (L & H). exists (map Qcopp L). intros t v (x & X & ->). apply in_map. eauto.
  - destruct F as [F1 F2]. destruct (IHf1 F1) as (L1 & H1), (IHf2 F2) as (L2 & H2). exists (L1 ++ L2). intros t v (a & b & A & B & ->).
    apply in_or_app. destruct (qmin_cases a b) as [[-> _]|[-> _]]; eauto.
  - destruct F as [F1 F2]. destruct (IHf1 F1) as (L1 & H1), (IHf2 F2) as (L2 & H2). exists (L1 ++ L2). intros t v (a & b & A & B & ->).
    apply in_or_app. destruct (qmax_cases a b) as [[-> _]|[-> _]]; eauto.
  - destruct F as [F1 F2]. destruct (IHf1 F1) as (L1 & H1), (IHf2 F2) as (L2 & H2). exists (map Qcopp L1 ++ L2). intros t v (a & b & A & B & ->).
    apply in_or_app. destruct (qmax_cases (- a) b) as [[-> _]|[-> _]]; [left; apply in_map; eauto|eauto].
  - destruct F as (_ & _ & F). destruct (IHf F) as (L & H). exists L. intros t v (g & G & S).
    destruct (sup_reached L _ _ _ _ S) as (u & U1 & U2 & <-); eauto.
  - destruct F as (_ & _ & F). destruct (IHf F) as (L & H). exists L. intros t v (g & G & S).
    destruct (inf_reached L _ _ _ _ S) as (u & U1 & U2 & <-); eauto.
Qed.
End Values.

(** ** The formula over rounded differences *)
Section Convert.
Variable E : env float.

(** An expression and a comparison on the doubles of a row. *)
Fixpoint fexpr (f : fml float) (row : list float) : float :=
  match f with
  | FSig _ c => nth c row n0
  | FConst p v => eff E p v
  | FAbs c => nabs (fexpr c row)
  | FPlus l r => nadd (fexpr l row) (fexpr r row)
  | FMinus l r => nsub (fexpr l row) (fexpr r row)
  | FMult l r => nmul (fexpr l row) (fexpr r row)
  | _ => n0
  end.
Definition dif (l : fml float) (op : comparator) (r : fml float) (row : list float) : float :=
  match op with
  | GREATERTHAN => nsub (fexpr l row) (fexpr r row)
  | LESSTHAN => nsub (fexpr r row) (fexpr l row)
  end.
Fixpoint difs (f : fml float) : list (list float -> float) :=
  match f with
  | FAtom l op r => [dif l op r]
  | FNot c | FEv _ c | FAlw _ c => difs c
  | FAnd l r | FOr l r | FImp l r => difs l ++ difs r
  | _ => []
  end.
Definition ratom (j : nat) : fml Qc := FAtom (FSig "" (S j)) GREATERTHAN (FConst None 0).
Inductive conv (cs : list (list float -> float)) : fml float -> fml Qc -> Prop :=
| V_atom : forall l op r j, nth_error cs j = Some (dif l op r) -> conv cs (FAtom l op r) (ratom j)
| V_not : forall c c', conv cs c c' -> conv cs (FNot c) (FNot c')
| V_and : forall l l' r r', conv cs l l' -> conv cs r r' -> conv cs (FAnd l r) (FAnd l' r')
| V_or : forall l l' r r', conv cs l l' -> conv cs r r' -> conv cs (FOr l r) (FOr l' r')
| V_imp : forall l l' r r', conv cs l l' -> conv cs r r' -> conv cs (FImp l r) (FImp l' r')
| V_ev : forall i c c', conv cs c c' -> conv cs (FEv i c) (FEv (interval_q i) c')
| V_alw : forall i c c', conv cs c c' -> conv cs (FAlw i c) (FAlw (interval_q i) c').

Lemma conv_some : forall val n f, timed val n (fml_q f) -> forall pre post, exists f', conv (pre ++ difs f ++ post) f f'.
Proof.
  intros val n f. induction f; intros F pre post; cbn [fml_q timed] in F; try contradiction; cbn [difs].
  - exists (ratom (List.length pre)). constructor. rewrite nth_error_app2 by lia. rewrite Nat.sub_diag. reflexivity.
  - destruct (IHf F pre post) as (f' & H). eexists. constructor. exact H.
  - destruct F as [F1 F2]. destruct (IHf1 F1 pre (difs f2 ++ post)) as (g1 & H1), (IHf2 F2 (pre ++ difs f1) post) as (g2 & H2).
    exists (FAnd g1 g2). rewrite <- app_assoc in *. constructor; auto.
  - destruct F as [F1 F2]. destruct (IHf1 F1 pre (difs f2 ++ post)) as (g1 & H1), (IHf2 F2 (pre ++ difs f1) post) as (g2 & H2).
    exists (FOr g1 g2). rewrite <- app_assoc in *. constructor; auto.
  - destruct F as [F1 F2]. destruct (IHf1 F1 pre (difs f2 ++ post)) as (g1 & H1), (IHf2 F2 (pre ++ difs f1) post) as (g2 & H2).
    exists (FImp g1 g2). rewrite <- app_assoc in *. constructor; auto.
  - destruct (IHf (proj2 (proj2 F)) pre post) as (f' & H). eexists. constructor. exact H.
  - destruct (IHf (proj2 (proj2 F)) pre post) as (f' & H). eexists. constructor. exact H.
Qed.

Variable cs : list (list float -> float).
Definition rrow (row : list float) : list Qc := qval (nth 0 row n0) :: map (fun c => qval (c row)) cs.
Definition env_r : env Qc := mkEnv (e_sem E) (e_ip E) (qval (e_M E)) (map rrow (e_data E)) (e_params (env_q E)).
Local Notation E1 := (env_q E).
Local Notation n2 := (List.length cs).

Lemma val_r : forall b, bound_value env_r b = bound_value E1 b.
Proof. reflexivity. Qed.
Lemma nth_qval : forall c row, nth c (map qval row) 0 = qval (nth c row n0).
Proof. intros c row. rewrite <- qval_0. apply map_nth. Qed.
Definition rtime (row : list float) : Qc := qval (nth 0 row n0).
Lemma rows_q : map row_time (e_data E1) = map rtime (e_data E).
Proof. cbn. rewrite map_map. apply map_ext. intros r. apply (nth_qval 0). Qed.
Lemma rows_r : map row_time (e_data env_r) = map row_time (e_data E1).
Proof. rewrite rows_q. cbn. rewrite map_map. reflexivity. Qed.
Lemma last_r : last_time (e_data env_r) = last_time (e_data E1).
Proof. unfold last_time. rewrite rows_r. reflexivity. Qed.
Lemma trace_r : forall n, trace n (e_data E1) -> trace n2 (e_data env_r).
Proof.
  intros n (A & B & C). split; [|split].
  - cbn in *. destruct (e_data E); [contradiction|discriminate].
  - eapply rising_times; [|exact B]. rewrite !times_column. symmetry. apply rows_r.
  - cbn. apply Forall_forall. intros r I. apply in_map_iff in I as (row & <- & _). unfold rrow. cbn. rewrite map_length. lia.
Qed.

Lemma timed_r : forall n f f', conv cs f f' -> timed (bound_value E1) n (fml_q f) -> timed (bound_value env_r) n2 f'.
Proof.
  intros n f f' H. induction H; intros F; cbn [fml_q timed] in *; auto; try tauto.
  split; [|exact Logic.I]. assert (j < n2)%nat by (apply nth_error_Some; congruence). cbn. lia.
Qed.
Lemma covers_r : forall T f f', conv cs f f' -> forall e, covers (bound_value E1) T (fml_q f) e -> covers (bound_value env_r) T f' e.
Proof. intros T f f' H. induction H; intros e C; cbn [fml_q covers] in *; auto; try (destruct C; auto); apply IHconv; exact C. Qed.
Lemma apart_r : forall f f', conv cs f f' -> forall e, apart (bound_value E1) (e_data E1) (fml_q f) e -> apart (bound_value env_r) (e_data env_r) f' e.
Proof.
  intros f f' H. induction H; intros e C; cbn [fml_q apart] in *; auto; try (destruct C; split; auto; fail).
  unfold ratom. cbn [apart]. rewrite rows_r. exact C.
Qed.
Lemma ends_r : forall f f', conv cs f f' -> forall s e, apart_ends (bound_value E1) (e_data E1) (fml_q f) s e -> apart_ends (bound_value env_r) (e_data env_r) f' s e.
Proof.
  intros f f' H. induction H; intros s e C; cbn [fml_q apart_ends] in *; auto;
    destruct C as ([->|[C1 C2]] & C3 & C4); split; auto; right; split; eapply apart_r; eauto.
Qed.
Lemma samples_r : forall f f', conv cs f f' -> forall s e, at_samples (bound_value env_r) (e_data env_r) f' s e.
Proof. intros f f' H. induction H; intros s e; cbn [at_samples ratom]; auto. left. exact Logic.I. Qed.

(** ** The values of comparisons *)
Variable n : nat.
Hypothesis TR : trace n (e_data E1).
Hypothesis Fin : Forall (Forall finite) (e_data E).
Hypothesis Big : finite (e_M E).
Local Notation here u := (pick _ rtime [] (e_data E) u).

Lemma here_q : forall u, pick _ row_time [] (e_data E1) u = map qval (here u).
Proof.
  intros u. pose proof (proj1 TR) as N. cbn in *. clear -N. induction (e_data E) as [|r D IH]; [contradiction|]. destruct D as [|r2 D]; [reflexivity|].
  assert (Q : row_time (map qval r2) = rtime r2) by apply (nth_qval 0). cbn [map pick]. rewrite Q.
  destruct (Qclt_le_dec u (rtime r2)); [reflexivity|]. apply IH. discriminate.
Qed.
Lemma some_rows : e_data E <> [].
Proof. destruct TR as (N & _ & _). cbn in N. intros H. rewrite H in N. apply N. reflexivity. Qed.
Lemma row_finite : forall u c, finite (nth c (here u) n0).
Proof.
  intros u c. rewrite Forall_forall in Fin. specialize (Fin _ (pick_in _ rtime [] _ u some_rows)).
  destruct (nth_in_or_default c (here u) n0) as [I|I]; [|rewrite I; apply den_0].
  rewrite Forall_forall in Fin. apply Fin. exact I.
Qed.
Lemma row_long : forall u, (n < List.length (here u))%nat.
Proof.
  intros u. destruct TR as (_ & _ & L). rewrite Forall_forall in L. specialize (L (map qval (here u))). rewrite map_length in L. apply L.
  cbn. apply in_map. apply pick_in. apply some_rows.
Qed.

(** Constants of the formula are finite. *)
Fixpoint consts (f : fml float) : Prop :=
  match f with
  | FConst p v => finite (eff E p v)
  | FAbs c => consts c
  | FPlus l r | FMinus l r | FMult l r => consts l /\ consts r
  | _ => True
  end.
Lemma consts_plain : forall k w f, arithmetic f -> plain_numbers E k w f -> consts f.
Proof. intros k w f. induction f; cbn [arithmetic plain_numbers consts]; tauto. Qed.

Lemma fexpr_den : forall f u, expression n (fml_q f) -> consts f -> no_rounding E1 (fml_q f) ->
  den (fexpr f (here u)) (pval E1 (fml_q f) u) /\ taken E1 (fml_q f) (pval E1 (fml_q f) u).
Proof.
  intros f u X C R. rewrite (pval_row E1 n TR) by exact X. rewrite here_q. revert X C R.
  induction f; intros X C R; cbn [fml_q expression] in X; try contradiction; cbn [fml_q at_row fexpr taken consts no_rounding] in *.
  - rewrite nth_qval. split; [split; [apply row_finite|reflexivity]|]. right. exists (map qval (here u)). split.
    + cbn. apply in_map. apply pick_in. apply some_rows.
    + rewrite <- nth_qval. apply nth_error_nth'. rewrite map_length. pose proof (row_long u). lia.
  - rewrite eff_q. split; [split; auto|right; reflexivity].
  - destruct (IHf X C R) as [A B]. rewrite <- abs_max. split; [apply den_abs; exact A|eauto].
  - destruct X as [X1 X2], C as [C1 C2], R as (R1 & R2 & R3), (IHf1 X1 C1 R1) as [A1 B1], (IHf2 X2 C2 R2) as [A2 B2].
    split; [apply den_add; auto|eauto 6].
  - destruct X as [X1 X2], C as [C1 C2], R as (R1 & R2 & R3), (IHf1 X1 C1 R1) as [A1 B1], (IHf2 X2 C2 R2) as [A2 B2].
    split; [apply den_sub; auto|eauto 6].
  - destruct X as [X1 X2], C as [C1 C2], R as (R1 & R2 & R3), (IHf1 X1 C1 R1) as [A1 B1], (IHf2 X2 C2 R2) as [A2 B2].
    split; [apply den_mul; auto|eauto 6].
Qed.

(** Any two doubles with the values of the operands have a rounded difference. *)
Lemma dif_rd : forall l op r u x y, expression n (fml_q l) -> expression n (fml_q r) -> consts l -> consts r -> no_rounding E1 (fml_q l) -> no_rounding E1 (fml_q r) ->
  - e_M E1 <= pdiff E1 (fml_q l) op (fml_q r) u -> pdiff E1 (fml_q l) op (fml_q r) u <= e_M E1 ->
  den x (pval E1 (fml_q l) u) -> den y (pval E1 (fml_q r) u) ->
  rd (pdiff E1 (fml_q l) op (fml_q r) u) (qval (dif l op r (here u))) /\
  den (match op with GREATERTHAN => nsub x y | LESSTHAN => nsub y x end) (qval (dif l op r (here u))).
Proof.
  intros l op r u x y X1 X2 C1 C2 R1 R2 L U Hx Hy.
  destruct (fexpr_den l u X1 C1 R1) as [A _], (fexpr_den r u X2 C2 R2) as [B _].
  assert (RM : representable (e_M E1)) by (exists (e_M E); split; auto).
  destruct op; cbn [pdiff atom_op dif] in *; unfold pdiff, atom_op in *; cbn [dif].
  - destruct (rd_sub _ _ _ _ _ B A RM L U) as [F1 D1]. destruct (rd_sub _ _ _ _ _ Hy Hx RM L U) as [F2 D2]. split; [exact D1|].
    split; [exact F2|]. apply Qcle_antisym; eapply rd_mono; eauto; apply Qcle_refl.
  - destruct (rd_sub _ _ _ _ _ A B RM L U) as [F1 D1]. destruct (rd_sub _ _ _ _ _ Hx Hy RM L U) as [F2 D2]. split; [exact D1|].
    split; [exact F2|]. apply Qcle_antisym; eapply rd_mono; eauto; apply Qcle_refl.
Qed.
Lemma ratom_val : forall l op r j u, nth_error cs j = Some (dif l op r) ->
  pval env_r (FSig "" (S j)) u = qval (dif l op r (here u)) /\ pval env_r (FConst None 0) u = 0.
Proof.
  intros l op r j u H. cbn [pval leaf_points eff]. split.
  - unfold column. cbn [env_r e_data]. rewrite map_map.
    rewrite (hold_pick _ rtime [] (fun row => nth (S j) (rrow row) 0)) by apply some_rows. unfold rrow. cbn [nth].
    set (g := fun c : list float -> float => qval (c (here u))). change (qval (dif l op r (here u))) with (g (dif l op r)).
    apply nth_error_nth. rewrite nth_error_map, H. reflexivity.
  - unfold level. cbn [env_r e_data]. rewrite map_map. rewrite (hold_pick _ rtime [] (fun _ => 0)) by apply some_rows. reflexivity.
Qed.
Lemma ratom_diff : forall l op r j u, nth_error cs j = Some (dif l op r) ->
  pdiff env_r (FSig "" (S j)) GREATERTHAN (FConst None 0) u = qval (dif l op r (here u)).
Proof. intros l op r j u H. destruct (ratom_val l op r j u H) as [A B]. unfold pdiff, atom_op. rewrite A, B. ring. Qed.

Local Notation Rob1 := (rob_of held (eff E1) (bound_value E1) (e_data E1)).
Local Notation Rob2 := (rob_of held (eff env_r) (bound_value env_r) (e_data env_r)).
Local Notation Within := (within_of held (eff E1) (bound_value E1) (e_data E1) (e_M E1)).

Lemma atom_within : forall l op r u, expression n (fml_q l) -> expression n (fml_q r) -> Within (FAtom (fml_q l) op (fml_q r)) ->
  - e_M E1 <= pdiff E1 (fml_q l) op (fml_q r) u /\ pdiff E1 (fml_q l) op (fml_q r) u <= e_M E1.
Proof.
  intros l op r u X1 X2 W. assert (R : Rob1 (FAtom (fml_q l) op (fml_q r)) u (pdiff E1 (fml_q l) op (fml_q r) u)) by (apply (atom_rob_p E1 n TR); auto).
  cbn [within_of] in W. exact (W _ _ R).
Qed.
Fixpoint all_consts (f : fml float) : Prop :=
  match f with
  | FAtom l _ r => consts l /\ consts r
  | FNot c | FEv _ c | FAlw _ c => all_consts c
  | FAnd l r | FOr l r | FImp l r => all_consts l /\ all_consts r
  | _ => True
  end.
Lemma logical_consts : forall k w f, logical f -> plain_numbers E k w f -> all_consts f.
Proof.
  intros k w f. induction f; cbn [logical plain_numbers all_consts]; try tauto. intros [A B] [C D]. split; eapply consts_plain; eauto.
Qed.

Lemma atom_rd : forall l op r j t v v2, expression n (fml_q l) -> expression n (fml_q r) -> consts l -> consts r -> no_rounding E1 (fml_q l) -> no_rounding E1 (fml_q r) ->
  Within (FAtom (fml_q l) op (fml_q r)) -> nth_error cs j = Some (dif l op r) ->
  Rob1 (FAtom (fml_q l) op (fml_q r)) t v -> Rob2 (ratom j) t v2 -> rd v v2.
Proof.
  intros l op r j t v v2 X1 X2 C1 C2 R1 R2 W J A B.
  destruct (atom_within l op r t X1 X2 W) as [L U]. apply (atom_rob_p E1 n TR) in A; auto.
  unfold ratom in B. apply (atom_rob_p env_r n2 (trace_r n TR)) in B; [|assert (j < n2)%nat by (apply nth_error_Some; congruence); cbn; lia|exact Logic.I].
  rewrite (ratom_diff l op r) in B by exact J. subst v v2.
  eapply dif_rd; eauto; apply fexpr_den; auto.
Qed.

Lemma within_r : forall f f', conv cs f f' -> timed (bound_value E1) n (fml_q f) -> all_consts f -> exact_operands E1 (fml_q f) -> Within (fml_q f) ->
  within_of held (eff env_r) (bound_value env_r) (e_data env_r) (e_M env_r) f'.
Proof.
  intros f f' H. induction H; intros F C R W; cbn [fml_q timed all_consts exact_operands] in F, C, R; try (cbn [within_of fml_q] in *; tauto).
  intros t v B. destruct F as [X1 X2], C as [C1 C2], R as [R1 R2].
  assert (A : Rob1 (FAtom (fml_q l) op (fml_q r)) t (pdiff E1 (fml_q l) op (fml_q r) t)) by (apply (atom_rob_p E1 n TR); auto).
  destruct (atom_within l op r t X1 X2 W) as [L U]. eapply (rd_within _ _ (e_M E1)); [eapply (atom_rd l op r j t); eauto| |exact L|exact U].
  exists (e_M E). split; auto.
Qed.

Lemma rob_rd : forall f f', conv cs f f' -> timed (bound_value E1) n (fml_q f) -> all_consts f -> exact_operands E1 (fml_q f) -> Within (fml_q f) ->
  forall t v v2, Rob1 (fml_q f) t v -> Rob2 f' t v2 -> rd v v2.
Proof.
  intros f f' H. induction H; intros F C R W t v v2 A B; cbn [fml_q timed all_consts exact_operands] in F, C, R.
  - cbn [fml_q] in *. eapply atom_rd; eauto; tauto.
  - destruct A as (a & A & ->), B as (b & B & ->). apply rd_opp. eapply IHconv; eauto.
  - destruct A as (a & a' & A & A' & ->), B as (b & b' & B & B' & ->), F as [F1 F2], C as [C1 C2], R as [R1 R2], W as [W1 W2].
    pose proof (IHconv1 F1 C1 R1 W1 _ _ _ A B) as P. pose proof (IHconv2 F2 C2 R2 W2 _ _ _ A' B') as Q.
    destruct (qmin_cases a a') as [[-> K]|[-> K]]; pose proof (rd_mono _ _ _ _ P Q) as O1; pose proof (rd_mono _ _ _ _ Q P) as O2.
    + replace (qmin b b') with b; auto. destruct (qmin_cases b b') as [[-> K']|[-> K']]; auto. apply Qcle_antisym; [apply O1; qlra|qlra].
    + replace (qmin b b') with b'; auto. destruct (qmin_cases b b') as [[-> K']|[-> K']]; auto. apply Qcle_antisym; [apply O2; qlra|qlra].
  - destruct A as (a & a' & A & A' & ->), B as (b & b' & B & B' & ->), F as [F1 F2], C as [C1 C2], R as [R1 R2], W as [W1 W2].
    pose proof (IHconv1 F1 C1 R1 W1 _ _ _ A B) as P. pose proof (IHconv2 F2 C2 R2 W2 _ _ _ A' B') as Q.
    destruct (qmax_cases a a') as [[-> K]|[-> K]]; pose proof (rd_mono _ _ _ _ P Q) as O1; pose proof (rd_mono _ _ _ _ Q P) as O2.
    + replace (qmax b b') with b; auto. destruct (qmax_cases b b') as [[-> K']|[-> K']]; auto. apply Qcle_antisym; [qlra|apply O2; qlra].
    + replace (qmax b b') with b'; auto. destruct (qmax_cases b b') as [[-> K']|[-> K']]; auto. apply Qcle_antisym; [qlra|apply O1; qlra].
  - destruct A as (a & a' & A & A' & ->), B as (b & b' & B & B' & ->), F as [F1 F2], C as [C1 C2], R as [R1 R2], W as [W1 W2].
    pose proof (rd_opp _ _ (IHconv1 F1 C1 R1 W1 _ _ _ A B)) as P. pose proof (IHconv2 F2 C2 R2 W2 _ _ _ A' B') as Q.
    destruct (qmax_cases (- a) a') as [[-> K]|[-> K]]; pose proof (rd_mono _ _ _ _ P Q) as O1; pose proof (rd_mono _ _ _ _ Q P) as O2.
    + replace (qmax (- b) b') with (- b); auto. destruct (qmax_cases (- b) b') as [[-> K']|[-> K']]; auto. apply Qcle_antisym; [qlra|apply O2; qlra].
    + replace (qmax (- b) b') with b'; auto. destruct (qmax_cases (- b) b') as [[-> K']|[-> K']]; auto. apply Qcle_antisym; [qlra|apply O1; qlra].
  - destruct F as (_ & _ & F). destruct A as (g & G & S), B as (h & G' & S').
    destruct (rob_finite E1 n TR _ F) as (L1 & I1). destruct (rob_finite env_r n2 (trace_r n TR) _ (timed_r n _ _ H F)) as (L2 & I2).
    destruct (sup_reached L1 _ _ _ _ S) as (u & U1 & U2 & <-); [eauto|]. destruct (sup_reached L2 _ _ _ _ S') as (u' & U1' & U2' & <-); [eauto|].
    pose proof (IHconv F C R W _ _ _ (G u U1 U2) (G' u U1 U2)) as P. pose proof (IHconv F C R W _ _ _ (G u' U1' U2') (G' u' U1' U2')) as Q.
    replace (h u') with (h u); [exact P|]. apply Qcle_antisym; [apply S'; auto|]. eapply rd_mono; [exact Q|exact P|]. apply S; auto.
  - destruct F as (_ & _ & F). destruct A as (g & G & S), B as (h & G' & S').
    destruct (rob_finite E1 n TR _ F) as (L1 & I1). destruct (rob_finite env_r n2 (trace_r n TR) _ (timed_r n _ _ H F)) as (L2 & I2).
    destruct (inf_reached L1 _ _ _ _ S) as (u & U1 & U2 & <-); [eauto|]. destruct (inf_reached L2 _ _ _ _ S') as (u' & U1' & U2' & <-); [eauto|].
    pose proof (IHconv F C R W _ _ _ (G u U1 U2) (G' u U1 U2)) as P. pose proof (IHconv F C R W _ _ _ (G u' U1' U2') (G' u' U1' U2')) as Q.
    replace (h u') with (h u); [exact P|]. apply Qcle_antisym; [|apply S'; auto]. eapply rd_mono; [exact P|exact Q|]. apply S; auto.
Qed.
End Convert.
