(** Samples after the first one beyond the horizon are not used. *)
From Coq Require Import List QArith Qcanon Bool Lia.
From Verif Require Import Num Base Signal QcTac Spec Robust Repr SigProof Transducer StlSpec TreeProof ReadProof AtomProof SafeSignal SafeTree.
Import ListNotations.
Local Open Scope Qc_scope.

Definition with_data (E : env Qc) (d : list (list Qc)) : env Qc := mkEnv (e_sem E) (e_ip E) (e_M E) d (e_params E).

Lemma read_signal_prefix : forall ip col e R R' P z t v k, (t <= e -> exists r, In r P /\ e < row_time r) ->
  read_signal ip col e z t v (P ++ R) k = read_signal ip col e z t v (P ++ R') k.
Proof.
  intros ip col e R R'. induction P as [|row P IH]; intros z t v k H.
  - cbn [app]. destruct (nleb t e) eqn:B.
    + qb. destruct (H B) as (r & [] & _).
    + destruct R, R'; cbn [read_signal]; rewrite B; reflexivity.
  - cbn [app read_signal]. destruct (nleb t e) eqn:B; [|reflexivity]. qb. specialize (H B).
    destruct row as [|t' row]; [reflexivity|]. cbn [nth_error]. destruct (nth_error (t' :: row) col) as [v'|]; [|reflexivity].
    destruct (appendSample ip z t' v'); try reflexivity. cbn [bind]. apply IH. intros L. destruct H as (r & [<-|I] & G); [|eauto].
    exfalso. change (row_time (t' :: row)) with t' in G. qlra.
Qed.
Lemma read_constant_prefix : forall ip e R R' P z t v k, (t <= e -> exists r, In r P /\ e < row_time r) ->
  read_constant ip e z t v (P ++ R) k = read_constant ip e z t v (P ++ R') k.
Proof.
  intros ip e R R'. induction P as [|row P IH]; intros z t v k H.
  - cbn [app]. destruct (nleb t e) eqn:B.
    + qb. destruct (H B) as (r & [] & _).
    + destruct R, R'; cbn [read_constant]; rewrite B; reflexivity.
  - cbn [app read_constant]. destruct (nleb t e) eqn:B; [|reflexivity]. qb. specialize (H B).
    destruct row as [|t' row]; [reflexivity|]. cbn [nth_error].
    destruct (appendSample ip z t' v); try reflexivity. cbn [bind]. apply IH. intros L. destruct H as (r & [<-|I] & G); [|eauto].
    exfalso. change (row_time (t' :: row)) with t' in G. qlra.
Qed.

Section Beyond.
Variable E0 : env Qc.
Variable w : nat.
Variables P R R' : list (list Qc).
Let E := with_data E0 (P ++ R).
Let E' := with_data E0 (P ++ R').
Hypothesis SP : e_sem E0 = SPACE.
Hypothesis TR : trace w (P ++ R).
Hypothesis TR' : trace w (P ++ R').

Definition known (e : Qc) : Prop := exists r, In r P /\ e < row_time r.

(** ** The first pass is the same *)
Definition seen (e : Qc) (f : fml Qc) : Prop := Forall (fun o => known (e + snd (snd o))) (offsets (bound_value E0) f).

Lemma offset_known : forall d a b e l, Forall (fun o => known (e + snd (snd o))) (map (offset d a b) l) ->
  Forall (fun o => known (e + b + snd (snd o))) l.
Proof.
  intros d a b e l H. apply (proj1 (Forall_map _ _ _)) in H. eapply Forall_impl; [|exact H].
  intros [p [x y]] K. cbn [offset snd] in *. replace (e + b + y) with (e + (b + y)) by ring. exact K.
Qed.
Lemma seen_here : forall f e, seen e f -> known e.
Proof.
  intros f e H. assert (K : known (e + 0)) by (destruct f; cbn [seen offsets] in H; unfold seen in H; cbn [offsets] in H; inversion H; auto).
  rewrite Qcplus_0_r in K. exact K.
Qed.
Lemma seen_same : forall d e l, Forall (fun o => known (e + snd (snd o))) (map (offset d 0 0) l) ->
  Forall (fun o => known (e + snd (snd o))) l.
Proof. intros d e l H. apply offset_known in H. rewrite Qcplus_0_r in H. exact H. Qed.

Lemma formula_pass : forall f s e, seen e f -> compute_rob E (prepare E (build f) s e) = compute_rob E' (prepare E' (build f) s e).
Proof.
  clear SP TR TR'. induction f; intros s e K; pose proof (seen_here _ _ K) as K0; unfold seen in K; cbn [offsets] in K;
    apply Forall_inv_tail in K; rewrite ?Forall_app in K; unfold prepare in *;
    cbn [build set_trace set_params reset set_horizon compute_rob].
  - unfold compute_signal. cbn [with_horizon end_time nz E E' with_data e_data e_ip rows_from skipn].
    rewrite (read_signal_prefix _ _ _ R R') by (intros _; exact K0).
    destruct K0 as (r & I & _). destruct P; [destruct I|]. reflexivity.
  - unfold compute_constant. change (get_param E') with (get_param E). cbn [with_horizon end_time nz E E' with_data e_data e_ip rows_from skipn].
    rewrite (read_constant_prefix _ _ R R') by (intros _; exact K0).
    destruct K0 as (r & I & _). destruct P; [destruct I|]. reflexivity.
  - apply seen_same in K. rewrite (IHf s e K). reflexivity.
  - destruct K as [K1 K2]. apply seen_same in K1, K2. rewrite (IHf1 s e K1), (IHf2 s e K2). reflexivity.
  - destruct K as [K1 K2]. apply seen_same in K1, K2. rewrite (IHf1 s e K1), (IHf2 s e K2). reflexivity.
  - destruct K as [K1 K2]. apply seen_same in K1, K2. rewrite (IHf1 s e K1), (IHf2 s e K2). reflexivity.
  - destruct K as [K1 K2]. apply seen_same in K1, K2. rewrite (IHf1 s e K1), (IHf2 s e K2). reflexivity.
  - apply seen_same in K. rewrite (IHf s e K). reflexivity.
  - destruct K as [K1 K2]. apply seen_same in K1, K2. rewrite (IHf1 s e K1), (IHf2 s e K2). reflexivity.
  - destruct K as [K1 K2]. apply seen_same in K1, K2. rewrite (IHf1 s e K1), (IHf2 s e K2). reflexivity.
  - destruct K as [K1 K2]. apply seen_same in K1, K2. rewrite (IHf1 s e K1), (IHf2 s e K2). reflexivity.
  - apply offset_known in K. unfold nadd; cbn [NumQc]. change (bound_value E) with (bound_value E0). change (bound_value E') with (bound_value E0). rewrite (IHf _ _ K). reflexivity.
  - apply offset_known in K. unfold nadd; cbn [NumQc]. change (bound_value E) with (bound_value E0). change (bound_value E') with (bound_value E0). rewrite (IHf _ _ K). reflexivity.
  - destruct K as [K1 K2]. apply offset_known in K1, K2. unfold nadd; cbn [NumQc]. change (bound_value E) with (bound_value E0). change (bound_value E') with (bound_value E0).
    rewrite (IHf1 _ _ K1), (IHf2 _ _ K2). reflexivity.
Qed.

Fixpoint fresh (s e : Qc) (t : tree Qc) : Prop :=
  match t with
  | TAtom n l _ r => n = start s e /\ 0 <= e /\ xini w s e l /\ xini w s e r
  | TNot n c => n = start s e /\ fresh s e c
  | TAnd n l r | TOr n l r | TImp n l r => n = start s e /\ fresh s e l /\ fresh s e r
  | TEv n i c | TAlw n i c =>
      n = start s e /\ 0 <= bound_value E0 (iend i) /\ fresh (s + bound_value E0 (ibegin i)) (e + bound_value E0 (iend i)) c
  | TUntil n l i r =>
      n = start s e /\ fresh s (e + bound_value E0 (iend i)) l /\
      fresh (s + bound_value E0 (ibegin i)) (e + bound_value E0 (iend i)) r
  | _ => False
  end.

(** ** Comparisons are read *)
Fixpoint settled (F : env Qc) (t : tree Qc) : Prop :=
  match t with
  | TAtom n l _ r => adone F w n l r
  | TNot _ c | TEv _ _ c | TAlw _ _ c => settled F c
  | TAnd _ l r | TOr _ l r | TImp _ l r | TUntil _ l _ r => settled F l /\ settled F r
  | _ => False
  end.

Ltac open H :=
  repeat match type of H with
  | bind ?r _ = Ok _ => let X := fresh "X" in destruct r as [?| | | |] eqn:X; cbn [bind] in H; try discriminate H
  | (match ?p with (_, _) => _ end) = Ok _ => destruct p
  end.

Lemma settled_pass : forall F, trace w (e_data F) -> e_sem F = SPACE -> e_params F = e_params E0 ->
  forall t s e v t', fresh s e t -> compute_rob F t = Ok (v, t') -> settled F t'.
Proof.
  intros F T S B.
  assert (BV : forall b, bound_value F b = bound_value E0 b).
  { intros b. unfold bound_value, get_param. rewrite B. reflexivity. }
  induction t; intros s e vv t' X H; cbn [fresh] in X; try contradiction.
  - destruct X as (-> & H0 & X1 & X2). destruct (atom_pass1 F w T S s e t1 op t2 H0 X1 X2) as (v1 & l' & r' & z & C1 & C2).
    rewrite C1 in H. injection H as <- <-. exact C2.
  - destruct X as (_ & X). cbn [compute_rob] in H. open H. injection H as <- <-. cbn [settled]. eauto.
  - destruct X as (_ & X1 & X2). cbn [compute_rob] in H. open H. injection H as <- <-. cbn [settled]. eauto.
  - destruct X as (_ & X1 & X2). cbn [compute_rob] in H. open H. injection H as <- <-. cbn [settled]. eauto.
  - destruct X as (_ & X1 & X2). cbn [compute_rob] in H. open H. injection H as <- <-. cbn [settled]. eauto.
  - destruct X as (_ & X0 & X). cbn [compute_rob] in H.
    destruct (compute_rob F t) as [[vc c']| | | |] eqn:C; cbn [bind] in H; try discriminate H. specialize (IHt _ _ _ _ X eq_refl).
    destruct (compute_timed_eventually (e_M F) (nz n) (tz c') (bound_value F (ibegin i)) (bound_value F (iend i))) as [z| | | |] eqn:Z; cbn [bind] in H; try discriminate H.
    destruct (resize (tz c') (nsub (smin (endTime z) (end_time n)) (bound_value F (iend i))) (endTime (tz c')) n0) as [zc| | | |] eqn:ZC; cbn [bind] in H; try discriminate H.
    open H. injection H as <- <-. cbn [settled].
    destruct c'; cbn [settled set_node] in *; try exact IHt.
    rename n0 into nA.
    cbn [node]. destruct IHt as ((s0 & e0 & L & bt & et & Y1 & Y2 & Y3 & Y4 & Y5) & HZ & HE & HF).
    change (tz (TAtom nA c'1 op c'2)) with (nz nA) in *.
    destruct (timed_ev_safe (e_M F) (nz n) (nz nA) (bound_value F (ibegin i)) (bound_value F (iend i)) HZ) as (z' & Z1 & Z2 & Z3 & Z4).
    rewrite Z1 in Z. injection Z as <-.
    assert (LE : smin (endTime z') (end_time n) - bound_value F (iend i) <= endTime (nz nA)).
    { rewrite BV, Z4. pose proof (back_by_le (bound_value F (ibegin i)) (endTime (nz nA))) as BB. unfold smin. qcase; qlra. }
    change (nsub (smin (endTime z') (end_time n)) (bound_value F (iend i))) with (smin (endTime z') (end_time n) - bound_value F (iend i)) in ZC.
    destruct (resize_some_safe (nz nA) _ (endTime (nz nA)) Num.n0 (or_introl HZ) LE) as (z1 & E1 & E2 & E3 & E4).
    destruct (resize_some (nz nA) _ (endTime (nz nA)) Num.n0 (headed_some _ HZ) LE eq_refl (removelast_forall _ _ _ HF)) as (z2 & F1 & F2 & F3 & F4 & F5).
    rewrite ZC in E1, F1. injection E1 as <-. injection F1 as <-.
    split; [|split; [exact E2|split]]; cbn [with_z nz]; rewrite ?F2; auto. exists s0, e0, L, bt, et. auto.
  - destruct X as (_ & _ & X). cbn [compute_rob] in H. open H. injection H as <- <-. cbn [settled]. eauto.
  - destruct X as (_ & X1 & X2). cbn [compute_rob] in H. open H. injection H as <- <-. cbn [settled]. eauto.
Qed.

(** ** The later passes *)
Inductive twin : tree Qc -> tree Qc -> Prop :=
| tw_atom : forall n l op r l' r', adone E w n l r -> adone E' w n l' r' -> twin (TAtom n l op r) (TAtom n l' op r')
| tw_not : forall n c c', twin c c' -> twin (TNot n c) (TNot n c')
| tw_and : forall n l r l' r', twin l l' -> twin r r' -> twin (TAnd n l r) (TAnd n l' r')
| tw_or : forall n l r l' r', twin l l' -> twin r r' -> twin (TOr n l r) (TOr n l' r')
| tw_imp : forall n l r l' r', twin l l' -> twin r r' -> twin (TImp n l r) (TImp n l' r')
| tw_ev : forall n i c c', twin c c' -> twin (TEv n i c) (TEv n i c')
| tw_alw : forall n i c c', twin c c' -> twin (TAlw n i c) (TAlw n i c')
| tw_until : forall n i l r l' r', twin l l' -> twin r r' -> twin (TUntil n l i r) (TUntil n l' i r').

Lemma twin_self : forall t, settled E t -> settled E' t -> twin t t.
Proof.
  induction t; cbn [settled]; intros H H'; try contradiction; constructor; try assumption; try (apply IHt; assumption);
    destruct H, H'; auto.
Qed.

Lemma twin_node : forall t t', twin t t' -> node t = node t'.
Proof. intros t t' H. destruct H; reflexivity. Qed.
Lemma twin_tup : forall t t', twin t t' -> tup t = tup t'.
Proof. intros t t' H. unfold tup. rewrite (twin_node _ _ H). reflexivity. Qed.
Lemma twin_tlow : forall t t', twin t t' -> tlow t = tlow t'.
Proof. intros t t' H. unfold tlow. rewrite (twin_node _ _ H). reflexivity. Qed.

Definition agree (r r' : res (Qc * tree Qc)) : Prop :=
  match r, r' with
  | Ok (v, t), Ok (v', t') => v = v' /\ twin t t'
  | UB, UB | Exn, Exn | NonFinite, NonFinite | OutOfFuel, OutOfFuel => True
  | _, _ => False
  end.

Ltac child IH :=
  match type of IH with
  | agree ?r ?r' =>
      let v := fresh "v" in let c := fresh "c" in let v' := fresh "v" in let c' := fresh "c" in
      destruct r as [[v c]| | | |], r' as [[v' c']| | | |];
      cbn [agree] in IH; try contradiction; cbn [bind]; try exact I;
      destruct IH as [<- IH];
      rewrite <- ?(twin_tup _ _ IH), <- ?(twin_tlow _ _ IH), <- ?(twin_node _ _ IH)
  end.
Ltac binds :=
  repeat match goal with
  | |- agree (bind ?r _) (bind ?r _) => destruct r as [?| | | |]; cbn [bind]; try exact I
  | |- agree (match ?p with (_, _) => _ end) _ => destruct p
  | |- agree (bind (bind ?r _) _) (bind (bind ?r _) _) => destruct r as [?| | | |]; cbn [bind]; try exact I
  | |- agree (if ?b then _ else _) (if ?b then _ else _) => destruct b; cbn [bind]
  end.

Lemma bound_pass_agree : forall t t', twin t t' -> forall up, agree (compute_bound E up t) (compute_bound E' up t').
Proof.
  intros t t' H. induction H; intros up.
  - change (compute_bound E up (TAtom n l op r)) with (r <- compute_rob E (TAtom n l op r) ;; default_bound E up r).
    change (compute_bound E' up (TAtom n l' op r')) with (r <- compute_rob E' (TAtom n l' op r') ;; default_bound E' up r).
    destruct (atom_pass2 E w TR SP n l op r H) as (v & l1 & r1 & C1 & C2 & C3).
    destruct (atom_pass2 E' w TR' SP n l' op r' H0) as (v' & l1' & r1' & D1 & D2 & D3).
    rewrite C1, D1. cbn [bind]. rewrite C3 in D3. injection D3 as <-.
    unfold default_bound. cbn [snd node]. change (e_ip E') with (e_ip E). change (e_M E') with (e_M E).
    binds; cbn [agree set_node]; (split; [reflexivity|]); constructor; destruct up; assumption.
  - cbn [compute_bound]. specialize (IHtwin (negb up)). child IHtwin. change (e_ip E') with (e_ip E). change (e_M E') with (e_M E). binds; cbn [agree]; split; auto; constructor; auto.
  - cbn [compute_bound]. specialize (IHtwin1 up). specialize (IHtwin2 up). child IHtwin1. child IHtwin2. change (e_ip E') with (e_ip E). change (e_M E') with (e_M E). binds; cbn [agree]; split; auto; constructor; auto.
  - cbn [compute_bound]. specialize (IHtwin1 up). specialize (IHtwin2 up). child IHtwin1. child IHtwin2. change (e_ip E') with (e_ip E). change (e_M E') with (e_M E). binds; cbn [agree]; split; auto; constructor; auto.
  - cbn [compute_bound]. specialize (IHtwin1 (negb up)). specialize (IHtwin2 up). child IHtwin1. child IHtwin2. change (e_ip E') with (e_ip E). change (e_M E') with (e_M E). binds; cbn [agree]; split; auto; constructor; auto.
  - cbn [compute_bound]. specialize (IHtwin up). child IHtwin. change (e_ip E') with (e_ip E). change (e_M E') with (e_M E). change (bound_value E') with (bound_value E). binds; cbn [agree]; split; auto; constructor; auto.
  - cbn [compute_bound]. specialize (IHtwin up). child IHtwin. change (e_ip E') with (e_ip E). change (e_M E') with (e_M E). change (bound_value E') with (bound_value E). binds; cbn [agree]; split; auto; constructor; auto.
  - cbn [compute_bound]. specialize (IHtwin1 up). specialize (IHtwin2 up). child IHtwin1.
    change (e_ip E') with (e_ip E). change (e_M E') with (e_M E). change (bound_value E') with (bound_value E).
    match goal with |- agree (if ?b then _ else _) _ => destruct b end; [cbn [agree]; split; auto; constructor; auto|].
    child IHtwin2. binds; cbn [agree]; split; auto; constructor; auto.
Qed.
Lemma fresh_build : forall d f s e, 0 <= e -> windowed (bound_value E0) w f -> fresh s e (prepare (with_data E0 d) (build f) s e).
Proof.
  intros d. induction f; intros s e H X; cbn [windowed] in X; try contradiction;
    unfold prepare; cbn [build set_trace set_params reset set_horizon fresh]; (split; [reflexivity|]).
  - split; [exact H|]. destruct X. split; apply (xini_build (with_data E0 d) w); auto.
  - apply IHf; auto.
  - destruct X. split; [apply IHf1|apply IHf2]; auto.
  - destruct X. split; [apply IHf1|apply IHf2]; auto.
  - destruct X. split; [apply IHf1|apply IHf2]; auto.
  - destruct X as [X1 X2]. split; [exact X1|]. apply IHf; auto. unfold nadd. cbn [NumQc]. change (bound_value (with_data E0 d)) with (bound_value E0). qlra.
  - destruct X as [X1 X2]. split; [exact X1|]. apply IHf; auto. unfold nadd. cbn [NumQc]. change (bound_value (with_data E0 d)) with (bound_value E0). qlra.
  - destruct X as (X1 & X2 & X3). change (bound_value (with_data E0 d)) with (bound_value E0). split; [apply IHf1|apply IHf2]; auto; unfold nadd; cbn [NumQc]; qlra.
Qed.

Theorem beyond_same : forall f t s e, skel t = skel (build f) -> windowed (bound_value E0) w f -> 0 <= e -> seen e f ->
  numbers (evaluate E t s e) = numbers (evaluate E' t s e).
Proof.
  intros f t s e Sk X H K. rewrite (evaluate_skel E t (build f) s e Sk), (evaluate_skel E' t (build f) s e Sk). unfold evaluate.
  pose proof (formula_pass f s e K) as FP. rewrite <- FP.
  destruct (compute_rob E (prepare E (build f) s e)) as [[v t1]| | | |] eqn:C; cbn [bind numbers]; try reflexivity.
  assert (TW : twin t1 t1).
  { apply twin_self.
    - exact (settled_pass E TR SP eq_refl _ s e _ _ (fresh_build (P ++ R) f s e H X) C).
    - exact (settled_pass E' TR' SP eq_refl _ s e _ _ (fresh_build (P ++ R') f s e H X) (eq_sym FP)). }
  pose proof (bound_pass_agree _ _ TW false) as A.
  destruct (compute_bound E false t1) as [[v2 t2]| | | |], (compute_bound E' false t1) as [[v2' t2']| | | |];
    cbn [agree] in A; try contradiction; cbn [bind numbers]; try reflexivity. destruct A as [<- A].
  pose proof (bound_pass_agree _ _ A true) as B.
  destruct (compute_bound E true t2) as [[v3 t3]| | | |], (compute_bound E' true t2') as [[v3' t3']| | | |];
    cbn [agree] in B; try contradiction; cbn [bind numbers]; try reflexivity. destruct B as [<- B]. reflexivity.
Qed.
End Beyond.

Lemma last_known : forall P e, P <> [] -> e < last_time P -> known P e.
Proof.
  intros P e N L. exists (last P []). split; [|].
  - rewrite (app_removelast_last [] N) at 2. apply in_or_app. right. left. reflexivity.
  - unfold last_time in L. replace (row_time (last P [])) with (last (map row_time P) 0); [exact L|].
    rewrite (app_removelast_last [] N) at 1. rewrite map_app. cbn [map]. apply last_last.
Qed.
