(** Evaluation of sample lists and the invariants used by the backward sweeps. *)
From Coq Require Import List QArith Qcanon Bool Lia.
From Verif Require Import Num Base Signal QcTac Spec.
Import ListNotations.
Local Open Scope Qc_scope.

Notation smp := (sample Qc).

Lemma valueAt_line : forall (p : smp) t, valueAt p t = line p t.
Proof. reflexivity. Qed.

Ltac vline := change (@valueAt Qc NumQc) with line in *.

(** Executable form of [denotes]. *)
Fixpoint eval (l : list smp) (t : Qc) : option Qc :=
  match l with
  | nil => None
  | p :: l' =>
      match eval l' t with
      | Some v => Some v
      | None => if nleb (time p) t then Some (line p t) else None
      end
  end.

Lemma eval_none : forall l t, eval l t = None <-> Forall (fun q => t < time q) l.
Proof.
  induction l as [|p l IH]; intros t; simpl.
  - split; auto.
  - destruct (eval l t) eqn:E.
    + split; [discriminate|]. intros H. inversion H; subst.
      apply IH in H3. congruence.
    + destruct (nleb (time p) t) eqn:B.
      * apply nleb_true in B. split; [discriminate|]. intros H. inversion H; subst. exfalso. qlra.
      * apply nleb_false in B. split; auto. intros _. constructor; auto. apply IH; auto.
Qed.

Lemma eval_denotes : forall l t v, eval l t = Some v <-> denotes l t v.
Proof.
  induction l as [|p l IH]; intros t v; simpl.
  - split; [discriminate|]. intros (l1 & p & l2 & H & _). destruct l1; discriminate.
  - destruct (eval l t) eqn:E.
    + split.
      * intros H. inversion H; subst. apply IH in E.
        destruct E as (l1 & q & l2 & H1 & H2 & H3 & H4).
        exists (p :: l1), q, l2. rewrite H1. auto.
      * intros (l1 & q' & l2 & H1 & H2 & H3 & H4). destruct l1 as [|a l1]; simpl in H1; inversion H1; subst.
        -- apply eval_none in H3. congruence.
        -- assert (D : denotes (l1 ++ q' :: l2) t (line q' t)) by (exists l1, q', l2; auto).
           apply IH in D. congruence.
    + pose proof (proj1 (eval_none l t) E) as F.
      destruct (nleb (time p) t) eqn:B.
      * apply nleb_true in B. split.
        -- intros H. inversion H; subst. exists [], p, l. auto.
        -- intros (l1 & q' & l2 & H1 & H2 & H3 & H4). destruct l1 as [|a l1]; simpl in H1; inversion H1; subst; auto.
           rewrite Forall_app in F. destruct F as [_ F]. inversion F; subst. exfalso. qlra.
      * apply nleb_false in B. split; [discriminate|].
        intros (l1 & q' & l2 & H1 & H2 & H3 & H4). exfalso. destruct l1 as [|a l1]; simpl in H1; inversion H1; subst.
        -- qlra.
        -- rewrite Forall_app in F. destruct F as [_ F]. inversion F; subst. qlra.
Qed.

Lemma denotes_fun : forall l t v w, denotes l t v -> denotes l t w -> v = w.
Proof. intros l t v w H1 H2. apply eval_denotes in H1, H2. congruence. Qed.

Lemma eval_some : forall p l t, time p <= t -> exists v, eval (p :: l) t = Some v.
Proof.
  intros p l t H. simpl. destruct (eval l t); eauto.
  apply nleb_true in H. rewrite H. eauto.
Qed.

Lemma eval_cons_all : forall p l t, Forall (fun q => t < time q) l -> time p <= t ->
  eval (p :: l) t = Some (line p t).
Proof.
  intros p l t H H'. simpl. apply eval_none in H. rewrite H. apply nleb_true in H'. rewrite H'. auto.
Qed.

Lemma eval_cons_some : forall p l t v, eval l t = Some v -> eval (p :: l) t = Some v.
Proof. intros p l t v H. simpl. rewrite H. auto. Qed.

Lemma eval_app : forall l1 l2 t,
  eval (l1 ++ l2) t = match eval l2 t with Some v => Some v | None => eval l1 t end.
Proof.
  induction l1 as [|p l1 IH]; intros l2 t; simpl.
  - destruct (eval l2 t); auto.
  - rewrite IH. destruct (eval l2 t); auto.
Qed.

Lemma Forall_lt_le : forall (l : list smp) s t, Forall (fun q => t <= time q) l -> s < t ->
  Forall (fun q => s < time q) l.
Proof. intros l s t H H'. eapply Forall_impl; [|exact H]. intros a Ha. simpl in *. qlra. Qed.

Lemma Forall_le_le : forall (l : list smp) s t, Forall (fun q => t <= time q) l -> s <= t ->
  Forall (fun q => s <= time q) l.
Proof. intros l s t H H'. eapply Forall_impl; [|exact H]. intros a Ha. simpl in *. qlra. Qed.

Lemma ordered_app : forall l1 l2, ordered (l1 ++ l2) <->
  ordered l1 /\ ordered l2 /\ (forall p q, In p l1 -> In q l2 -> time p <= time q).
Proof.
  induction l1 as [|a l1 IH]; intros l2; simpl.
  - split; [intros H; split; [auto|split; [auto|intros p q []]] | intros (_ & H & _); auto].
  - rewrite IH, Forall_app. split.
    + intros ((F1 & F2) & O1 & O2 & H). repeat split; auto.
      intros p q [<-|I] J; auto. rewrite Forall_forall in F2. auto.
    + intros ((F1 & O1) & O2 & H). repeat split; auto.
      rewrite Forall_forall. intros q J. apply H; auto.
Qed.

Lemma increasing_ordered : forall l, increasing l -> ordered l.
Proof.
  induction l as [|a l IH]; simpl; auto. intros [F I]. split; auto.
  eapply Forall_impl; [|exact F]. intros. simpl in *. qlra.
Qed.

(** ** Lines *)

Lemma line_shift : forall (p : smp) s t, line p t = line p s + deriv p * (t - s).
Proof. intros. unfold line. ring. Qed.

Lemma line_between : forall (i j : smp) s u t, s <= u -> u <= t ->
  line i s <= line j s -> line i t <= line j t -> line i u <= line j u.
Proof.
  intros i j s u t H1 H2 H3 H4.
  destruct (Qcle_lt_or_eq _ _ H1) as [L|<-]; auto.
  rewrite (line_shift i s u), (line_shift j s u).
  rewrite (line_shift i s t), (line_shift j s t) in H4.
  generalize dependent (line i s). generalize dependent (line j s). intros js is H3 H4.
  generalize dependent (deriv i). generalize dependent (deriv j). intros dj di H4.
  destruct (Qclt_le_dec dj di) as [D|D].
  - assert ((di - dj) * (u - s) <= (di - dj) * (t - s)) by qnra. qlra.
  - qnra.
Qed.

(** The crossing of two lines. *)
Lemma timeIntersect_ok : forall i j : smp, deriv j <> deriv i ->
  exists t', timeIntersect i j = Ok t' /\ line i t' = line j t'.
Proof.
  intros i j H. unfold timeIntersect. rewrite ndiv_some.
  - eexists; split; [reflexivity|]. unfold line, nsub, nadd, nmul; cbn [NumQc].
    field. intro E. apply H. qlra.
  - intro E. apply H. unfold nsub in E; cbn [NumQc] in E. qlra.
Qed.

Lemma crossing : forall (i j : smp) s t, s <= t -> line j s < line i s -> line i t < line j t ->
  exists t', timeIntersect i j = Ok t' /\ s < t' /\ t' < t /\ line i t' = line j t' /\
    (forall u, s <= u -> u <= t' -> line j u <= line i u) /\
    (forall u, t' <= u -> u <= t -> line i u <= line j u).
Proof.
  intros i j s t Hst H1 H2.
  assert (Hd : deriv j <> deriv i).
  { intro E. rewrite (line_shift i s t), (line_shift j s t), E in H2. qlra. }
  destruct (timeIntersect_ok i j Hd) as (t' & E & L).
  exists t'.
  assert (S1 : s < t').
  { apply Qcnot_le_lt. intro C.
    assert (line j s <= line i s) by qlra.
    assert (K : line i s <= line j s).
    { apply (line_between i j t' s t); auto; try qlra. }
    qlra. }
  assert (S2 : t' < t).
  { apply Qcnot_le_lt. intro C.
    assert (K : line j t <= line i t).
    { apply (line_between j i s t t'); auto; try qlra. }
    qlra. }
  repeat split; auto.
  - intros u U1 U2. apply (line_between j i s u t'); auto; qlra.
  - intros u U1 U2. apply (line_between i j t' u t); auto; qlra.
Qed.

Lemma crossing2 : forall (i j : smp) s t, s <= t -> line i s < line j s -> line j t < line i t ->
  exists t', timeIntersect i j = Ok t' /\ s < t' /\ t' < t /\ line i t' = line j t' /\
    (forall u, s <= u -> u <= t' -> line i u <= line j u) /\
    (forall u, t' <= u -> u <= t -> line j u <= line i u).
Proof.
  intros i j s t Hst H1 H2.
  assert (Hd : deriv j <> deriv i).
  { intro E. rewrite (line_shift i s t), (line_shift j s t), E in H2. qlra. }
  destruct (timeIntersect_ok i j Hd) as (t' & E & L).
  exists t'.
  assert (S1 : s < t').
  { apply Qcnot_le_lt. intro C.
    assert (K : line j s <= line i s).
    { apply (line_between j i t' s t); auto; try qlra. }
    qlra. }
  assert (S2 : t' < t).
  { apply Qcnot_le_lt. intro C.
    assert (K : line i t <= line j t).
    { apply (line_between i j s t t'); auto; try qlra. }
    qlra. }
  repeat split; auto.
  - intros u U1 U2. apply (line_between i j s u t'); auto; qlra.
  - intros u U1 U2. apply (line_between j i t' u t); auto; qlra.
Qed.

(** ** Pieces

    The sweeps are verified for two readings of "on the piece that ends at [t]":
    half open ([cl = false]: signals with jumps) and closed ([cl = true]:
    continuous signals, for which values at right ends are also known). *)

Definition rlt (cl : bool) (u t : Qc) : Prop := if cl then u <= t else u < t.

Lemma rlt_lt : forall cl u t, u < t -> rlt cl u t.
Proof. intros [|] u t H; unfold rlt; qlra. Qed.
Lemma rlt_le : forall cl u t, rlt cl u t -> u <= t.
Proof. intros [|] u t H; unfold rlt in H; qlra. Qed.
Lemma rlt_trans : forall cl u t t', rlt cl u t -> t <= t' -> rlt cl u t'.
Proof. intros [|] u t t' H H'; unfold rlt in *; qlra. Qed.

Ltac qr :=
  match goal with
  | |- rlt _ _ _ => first [assumption | eapply rlt_trans; [eassumption|qlra] | apply rlt_lt; qlra]
  | H : rlt _ _ _ |- _ => apply rlt_le in H; qr
  | |- _ => qlra
  end.

(** [z] is made of consecutive pieces from [t] to [e]; the values on each piece
    satisfy [Q]. *)
Inductive prepQ (cl : bool) (Q : Qc -> Qc -> Prop) (e : Qc) : list smp -> Qc -> Prop :=
| prep_nil : prepQ cl Q e [] e
| prep_cons : forall p z t t', time p = t -> t <= t' ->
    (forall u, t <= u -> rlt cl u t' -> Q u (line p u)) ->
    prepQ cl Q e z t' -> prepQ cl Q e (p :: z) t.

Lemma prepQ_le : forall cl Q e z t, prepQ cl Q e z t -> t <= e.
Proof. intros cl Q e z t P. induction P; qlra. Qed.

Lemma prepQ_times : forall cl Q e z t, prepQ cl Q e z t -> Forall (fun q => t <= time q) z.
Proof.
  intros cl Q e z t P. induction P; constructor; [qlra|]. eapply Forall_le_le; eauto.
Qed.

Lemma prepQ_ordered : forall cl Q e z t, prepQ cl Q e z t -> ordered z.
Proof.
  intros cl Q e z t P. induction P; cbn; auto. split; auto.
  eapply Forall_le_le; [eapply prepQ_times; eauto|qlra].
Qed.

Lemma prepQ_impl : forall cl (Q Q' : Qc -> Qc -> Prop) e z t, prepQ cl Q e z t ->
  (forall u v, t <= u -> rlt cl u e -> Q u v -> Q' u v) -> prepQ cl Q' e z t.
Proof.
  intros cl Q Q' e z t P. induction P as [|p z t t' H1 H2 H3 P IH]; intros H; [constructor|].
  pose proof (prepQ_le _ _ _ _ _ P).
  eapply prep_cons; eauto.
  - intros u U1 U2. apply H; auto. qr.
  - apply IH. intros u v U1 U2. apply H; auto. qlra.
Qed.

(** Pieces of a function [f]. *)
Notation prep cl f := (prepQ cl (fun u v => f u = v)).

Lemma prep_ordered : forall cl f e z t, prep cl f e z t -> ordered z.
Proof. intros cl f e z t P. eapply prepQ_ordered; eauto. Qed.

Lemma prep_eval : forall cl f e z t, prep cl f e z t ->
  forall u, t <= u -> u < e -> eval z u = Some (f u).
Proof.
  intros cl f e z t P. induction P as [|p z t t' H1 H2 H3 P IH]; intros u U1 U2.
  - exfalso. qlra.
  - destruct (Qclt_le_dec u t') as [C|C].
    + rewrite eval_cons_all; [f_equal; symmetry; apply H3; auto; qr| |qlra].
      eapply Forall_lt_le; [eapply prepQ_times; eauto|auto].
    + apply eval_cons_some. apply IH; auto.
Qed.

Lemma prep_eval_end : forall f e z t, prep true f e z t -> z <> [] -> eval z e = Some (f e).
Proof.
  intros f e z t P. induction P as [|p z t t' H1 H2 H3 P IH]; intros Hz; [congruence|].
  destruct z as [|q z].
  - inversion P; subst. cbn [eval]. assert (B : nleb (time p) t' = true) by (apply nleb_true; auto).
    rewrite B. f_equal. symmetry. apply H3; auto. cbn. qlra.
  - apply eval_cons_some. apply IH. discriminate.
Qed.

Lemma prep_value : forall f e z t, prep true f e z t -> Forall (fun q => value q = f (time q)) z.
Proof.
  intros f e z t P. induction P as [|p z t t' H1 H2 H3 P IH]; constructor; auto.
  rewrite H1, H3; [|qlra|exact H2]. unfold line. rewrite H1. ring.
Qed.

Lemma prep_cont : forall f e z t, prep true f e z t -> continuous z.
Proof.
  intros f e z t P. induction P as [|p z t t' H1 H2 H3 P IH]; [exact I|].
  destruct z as [|q z]; [exact I|]. split; [|exact IH].
  pose proof (prep_value _ _ _ _ P) as V. inversion V; subst. inversion P; subst.
  rewrite H4. symmetry. apply H3; auto. cbn. qlra.
Qed.

Lemma prep_ext : forall cl f g e z t, prep cl f e z t ->
  (forall u, t <= u -> rlt cl u e -> f u = g u) -> prep cl g e z t.
Proof.
  intros cl f g e z t P. induction P as [|p z t t' H1 H2 H3 P IH]; intros H; [constructor|].
  pose proof (prepQ_le _ _ _ _ _ P).
  eapply prep_cons; eauto.
  - intros u U1 U2. rewrite <- H, H3; auto. qr.
  - apply IH. intros u U1 U2. apply H; auto. qlra.
Qed.

(** ** A descending list read from its head, on [[b,t)] *)

Inductive drepQ (cl : bool) (Q : Qc -> Qc -> Prop) (b : Qc) : list smp -> Qc -> Prop :=
| drep_last : forall p j t, time p <= b ->
    (forall u, b <= u -> rlt cl u t -> Q u (line p u)) -> drepQ cl Q b (p :: j) t
| drep_step : forall p j t, b < time p -> time p <= t ->
    (forall u, time p <= u -> rlt cl u t -> Q u (line p u)) ->
    drepQ cl Q b j (time p) -> drepQ cl Q b (p :: j) t.

Notation drep cl f := (drepQ cl (fun u v => f u = v)).

Lemma drepQ_impl : forall cl (Q Q' : Qc -> Qc -> Prop) b j t, drepQ cl Q b j t ->
  (forall u v, b <= u -> rlt cl u t -> Q u v -> Q' u v) -> drepQ cl Q' b j t.
Proof.
  intros cl Q Q' b j t D. induction D as [p j t L E | p j t L1 L2 E D IH]; intros H.
  - apply drep_last; auto.
  - apply drep_step; auto.
    + intros u U1 U2. apply H; auto. qlra.
    + apply IH. intros u v U1 U2. apply H; auto. qr.
Qed.

(** ** The order in which the sweeps pair the pieces of two descending lists

    [P u v w] relates the values [v] and [w] of the two pieces that are current
    together at time [u]. *)
Inductive merged (cl : bool) (P : Qc -> Qc -> Qc -> Prop) (b : Qc) : list smp -> list smp -> Qc -> Prop :=
| m_end : forall p i q j t, time p <= b -> time q <= b ->
    (forall u, b <= u -> rlt cl u t -> P u (line p u) (line q u)) ->
    merged cl P b (p :: i) (q :: j) t
| m_j : forall p i q j t, time p < time q -> b < time q -> time q <= t ->
    (forall u, time q <= u -> rlt cl u t -> P u (line p u) (line q u)) ->
    merged cl P b (p :: i) j (time q) -> merged cl P b (p :: i) (q :: j) t
| m_i : forall p i q j t, time q < time p -> b < time p -> time p <= t ->
    (forall u, time p <= u -> rlt cl u t -> P u (line p u) (line q u)) ->
    merged cl P b i (q :: j) (time p) -> merged cl P b (p :: i) (q :: j) t
| m_ij : forall p i q j t, time q = time p -> b < time p -> time p <= t ->
    (forall u, time p <= u -> rlt cl u t -> P u (line p u) (line q u)) ->
    merged cl P b i j (time p) -> merged cl P b (p :: i) (q :: j) t.

Lemma merged_of_drep : forall cl Qi Qj b i t, drepQ cl Qi b i t -> forall j, drepQ cl Qj b j t ->
  merged cl (fun u v w => Qi u v /\ Qj u w) b i j t.
Proof.
  intros cl Qi Qj b i t Di j Dj. remember (length i + length j)%nat as n eqn:Hn.
  revert i j t Di Dj Hn. induction n as [n IH] using lt_wf_ind; intros i j t Di Dj Hn.
  destruct Di as [p i t Lp Ep | p i t Lp1 Lp2 Ep Di]; destruct Dj as [q j t Lq Eq | q j t Lq1 Lq2 Eq Dj];
    cbn [length] in Hn.
  - apply m_end; auto.
  - apply m_j; auto; try qlra.
    + intros u U1 U2. split; auto. apply Ep; auto. qlra.
    + eapply IH; [|apply drep_last|exact Dj|reflexivity]; auto; [cbn; lia|].
      intros u U1 U2. apply Ep; auto. qr.
  - apply m_i; auto; try qlra.
    + intros u U1 U2. split; auto. apply Eq; auto. qlra.
    + eapply IH; [|exact Di|apply drep_last|reflexivity]; auto; [cbn; lia|].
      intros u U1 U2. apply Eq; auto. qr.
  - destruct (Qclt_le_dec (time p) (time q)) as [C|C].
    + apply m_j; auto.
      * intros u U1 U2. split; auto. apply Ep; auto. qlra.
      * eapply IH; [|apply drep_step|exact Dj|reflexivity]; auto; [cbn; lia|qlra|].
        intros u U1 U2. apply Ep; auto. qr.
    + destruct (Qcle_lt_or_eq _ _ C) as [C'|C'].
      * apply m_i; auto.
        -- intros u U1 U2. split; auto. apply Eq; auto. qlra.
        -- eapply IH; [|exact Di|apply drep_step|reflexivity]; auto; [cbn; lia|].
           intros u U1 U2. apply Eq; auto. qr.
      * apply m_ij; auto.
        -- intros u U1 U2. split; auto. apply Eq; auto. qlra.
        -- eapply IH; [|exact Di|rewrite <- C'; exact Dj|reflexivity]. lia.
Qed.

Lemma merged_hd : forall cl P b p i q j t, merged cl P b (p :: i) (q :: j) t ->
  (time p <= t \/ time p <= b) /\ (time q <= t \/ time q <= b).
Proof. intros cl P b p i q j t H. inversion H; subst; split; auto; left; qlra. Qed.

Lemma merged_inv : forall cl P b i j t, merged cl P b i j t ->
  exists p i' q j', i = p :: i' /\ j = q :: j'.
Proof. intros cl P b i j t H. inversion H; subst; eauto 6. Qed.

Lemma merged_pair : forall cl P b p i q j t, merged cl P b (p :: i) (q :: j) t ->
  forall u, b <= u -> time p <= u -> time q <= u -> rlt cl u t -> P u (line p u) (line q u).
Proof. intros cl P b p i q j t H. inversion H; subst; auto. Qed.

Lemma merged_impl : forall cl (P P' : Qc -> Qc -> Qc -> Prop) b i j t, merged cl P b i j t ->
  (forall u v w, b <= u -> rlt cl u t -> P u v w -> P' u v w) -> merged cl P' b i j t.
Proof.
  intros cl P P' b i j t H. induction H; intros K.
  - apply m_end; auto.
  - apply m_j; auto.
    + intros u U1 U2. apply K; auto. qlra.
    + apply IHmerged. intros u v w U1 U2. apply K; auto. qr.
  - apply m_i; auto.
    + intros u U1 U2. apply K; auto. qlra.
    + apply IHmerged. intros u v w U1 U2. apply K; auto. qr.
  - apply m_ij; auto.
    + intros u U1 U2. apply K; auto. qlra.
    + apply IHmerged. intros u v w U1 U2. apply K; auto. qr.
Qed.

(** From evaluation of an ascending list to a descending one. *)
Lemma drep_of_eval : forall l b t f,
  ordered l -> (exists p l', l = p :: l' /\ time p <= b) ->
  Forall (fun q => time q <= t) l ->
  (forall u, b <= u -> u < t -> eval l u = Some (f u)) ->
  drep false f b (rev l) t.
Proof.
  intros l. induction l as [|q l IH] using rev_ind; intros b t f O (p & l' & Hl & Hp) F E.
  - discriminate.
  - rewrite rev_app_distr. simpl.
    rewrite ordered_app in O. destruct O as (O1 & _ & O3).
    rewrite Forall_app in F. destruct F as [F1 F2]. inversion F2; subst.
    destruct (Qclt_le_dec b (time q)) as [C|C].
    + assert (N : l <> []).
      { intro. subst l. simpl in Hl. inversion Hl; subst. qlra. }
      apply drep_step; auto.
      * intros u U1 U2. cbn in U2. specialize (E u). rewrite eval_app in E. simpl in E.
        assert (B : nleb (time q) u = true) by (apply nleb_true; auto). rewrite B in E.
        assert (b <= u) by qlra. specialize (E H U2). inversion E. auto.
      * apply IH; auto.
        -- destruct l as [|a l0]; [congruence|]. exists a, l0. split; auto. simpl in Hl. inversion Hl; subst. auto.
        -- rewrite Forall_forall. intros x Hx. apply O3; simpl; auto.
        -- intros u U1 U2. assert (u < t) by qlra. specialize (E u U1 H). rewrite eval_app in E. simpl in E.
           assert (B : nleb (time q) u = false) by (apply nleb_false; auto). rewrite B in E. auto.
    + apply drep_last; auto. intros u U1 U2. cbn in U2. specialize (E u U1 U2). rewrite eval_app in E. simpl in E.
      assert (B : nleb (time q) u = true) by (apply nleb_true; qlra). rewrite B in E. inversion E. auto.
Qed.

(** In a continuous list every sample lies on the denoted function. *)
Lemma cont_tail : forall p l, continuous (p :: l) -> continuous l.
Proof. intros p [|q l]; cbn; auto. intros [_ H]. exact H. Qed.
Lemma cont_app_l : forall l1 l2, continuous (l1 ++ l2) -> continuous l1.
Proof.
  induction l1 as [|p l1 IH]; intros l2 C; [exact I|].
  destruct l1 as [|q l1]; [exact I|]. cbn [app] in C. destruct C as [C1 C2].
  split; auto. apply (IH l2). exact C2.
Qed.
Lemma cont_app_r : forall l1 l2, continuous (l1 ++ l2) -> continuous l2.
Proof. induction l1 as [|p l1 IH]; intros l2 C; auto. apply IH. eapply cont_tail. exact C. Qed.

Lemma cont_eval_front : forall l p, ordered (p :: l) -> continuous (p :: l) ->
  eval (p :: l) (time p) = Some (value p).
Proof.
  induction l as [|q l IH]; intros p O C.
  - cbn [eval]. assert (B : nleb (time p) (time p) = true) by (apply nleb_true; qlra). rewrite B.
    f_equal. unfold line. ring.
  - destruct C as [C1 C2]. destruct O as [O1 O2]. inversion O1 as [|? ? O3 O4]; subst.
    destruct (Qcle_lt_or_eq _ _ O3) as [L|L].
    + rewrite eval_cons_all; [f_equal; unfold line; ring| |qlra].
      constructor; auto. destruct O2 as [O2 _]. eapply Forall_lt_le; [exact O2|exact L].
    + apply eval_cons_some. rewrite L. rewrite IH; auto. f_equal.
      rewrite <- C1, <- L. unfold line. ring.
Qed.

Lemma cont_eval_at : forall l1 p l2, ordered (l1 ++ p :: l2) -> continuous (l1 ++ p :: l2) ->
  eval (l1 ++ p :: l2) (time p) = Some (value p).
Proof.
  intros l1 p l2 O C. rewrite eval_app. rewrite cont_eval_front; auto.
  - rewrite ordered_app in O. apply O.
  - eapply cont_app_r; eauto.
Qed.

Lemma drep_of_cont : forall l l2 b t f,
  ordered (l ++ l2) -> continuous (l ++ l2) -> (exists p l', l = p :: l' /\ time p <= b) ->
  Forall (fun q => time q <= t) l -> Forall (fun q => t <= time q) l2 ->
  (forall u, b <= u -> u <= t -> eval (l ++ l2) u = Some (f u)) ->
  drep true f b (rev l) t.
Proof.
  intros l. induction l as [|q l IH] using rev_ind; intros l2 b t f O C (p & l' & Hl & Hp) F F' E.
  - discriminate.
  - rewrite rev_app_distr. simpl. rewrite <- app_assoc in *. cbn [app] in *.
    assert (L : forall u, b <= u -> time q <= u -> u <= t -> f u = line q u).
    { intros u U1 U2 U3. specialize (E u U1 U3). rewrite eval_app in E. cbn [eval] in E.
      assert (B : nleb (time q) u = true) by (apply nleb_true; auto). rewrite B in E.
      destruct l2 as [|r l2]; [cbn in E; inversion E; auto|].
      destruct (Qclt_le_dec u (time r)) as [D|D].
      - assert (N : eval (r :: l2) u = None).
        { apply eval_none. constructor; auto. rewrite ordered_app in O. destruct O as (_ & O & _).
          cbn in O. destruct O as (_ & O & _). eapply Forall_lt_le; eauto. }
        rewrite N in E. inversion E; auto.
      - inversion F' as [|? ? F1 F2]; subst.
        assert (u = time r) by qlra. assert (t = time r) by qlra. subst u t.
        apply cont_app_r in C. pose proof (cont_eval_front l2 r) as K. cbn [eval] in E.
        assert (K' : eval (r :: l2) (time r) = Some (value r)).
        { apply K. - rewrite ordered_app in O. destruct O as (_ & O & _). cbn in O. apply O.
          - apply C. }
        cbn [eval] in K'. rewrite K' in E. inversion E. destruct C as [C _]. auto. }
    assert (Oq : forall x, In x l -> time x <= time q).
    { intros x Hx. rewrite ordered_app in O. destruct O as (_ & _ & O). apply O; simpl; auto. }
    rewrite Forall_app in F. destruct F as [F1 F2]. inversion F2 as [|? ? F3 F4]; subst.
    destruct (Qclt_le_dec b (time q)) as [D|D].
    + assert (N : l <> []).
      { intro. subst l. simpl in Hl. inversion Hl; subst. qlra. }
      apply drep_step; auto.
      * intros u U1 U2. cbn in U2. apply L; auto. qlra.
      * apply (IH (q :: l2)); auto.
        -- destruct l as [|a l0]; [congruence|]. exists a, l0. split; auto. simpl in Hl. inversion Hl; subst. auto.
        -- rewrite Forall_forall. auto.
        -- constructor; [qlra|]. eapply Forall_le_le; eauto.
        -- intros u U1 U2. apply E; auto. qlra.
    + apply drep_last; auto. intros u U1 U2. cbn in U2. apply L; auto. qlra.
Qed.
