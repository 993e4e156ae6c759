(** resize and shift. *)
From Coq Require Import List QArith Qcanon Bool Lia.
From Verif Require Import Num Base Signal QcTac Spec Robust Repr AndProof NegProof SimplifyProof Lip BoolOps Closed SigProof.
Import ListNotations.
Local Open Scope Qc_scope.

Lemma drop_while_spec : forall A (f : A -> bool) l, exists l2, l = l2 ++ drop_while f l /\ Forall (fun a => f a = true) l2 /\
  match drop_while f l with nil => True | a :: _ => f a = false end.
Proof.
  intros A f. induction l as [|a l (l2 & E & F & H)]; cbn [drop_while].
  - exists []. auto.
  - destruct (f a) eqn:Fa.
    + exists (a :: l2). cbn [app]. rewrite <- E. auto.
    + exists []. auto.
Qed.

Lemma pop_back_spec : forall A (f : A -> bool) l, exists l2, l = pop_back_while f l ++ l2 /\ Forall (fun a => f a = true) l2 /\
  (pop_back_while f l = [] \/ exists r a, pop_back_while f l = r ++ [a] /\ f a = false).
Proof.
  intros A f l. unfold pop_back_while.
  destruct (drop_while_spec A f (rev l)) as (l2 & E & F & H).
  exists (rev l2). rewrite <- rev_app_distr, <- E, rev_involutive. split; [auto|]. split.
  - rewrite Forall_forall in *. intros x Hx. apply F. apply in_rev. auto.
  - destruct (drop_while f (rev l)) as [|a r]; [left; reflexivity|]. right. exists (rev r), a. auto.
Qed.

Lemma pop_back_le : forall t (l : list smp), ordered l ->
  exists l2, l = pop_back_while (fun p => nltb t (time p)) l ++ l2 /\
    Forall (fun q => time q <= t) (pop_back_while (fun p => nltb t (time p)) l) /\
    Forall (fun q => t < time q) l2.
Proof.
  intros t l O. destruct (pop_back_spec _ (fun p : smp => nltb t (time p)) l) as (l2 & E & F & H).
  exists l2. split; [exact E|]. split.
  - destruct H as [H|(r & a & H & K)]; [rewrite H; auto|]. rewrite E in O. rewrite H in *.
    apply nltb_false in K. rewrite ordered_app in O. destruct O as (O & _). rewrite ordered_app in O. destruct O as (_ & _ & O).
    rewrite Forall_app. split; auto. rewrite Forall_forall. intros q Hq. specialize (O q a Hq (or_introl eq_refl)). qlra.
  - eapply Forall_impl; [|exact F]. intros a Ha. cbn in Ha. apply nltb_true in Ha. auto.
Qed.

Lemma pop_front_spec : forall s l (f0 : smp), exists pre, let '(f, l') := pop_front_lt s f0 l in
  l = pre ++ l' /\ Forall (fun q => time q < s) pre /\
  match l' with nil => True | q :: _ => s <= time q end /\
  ((pre = [] /\ f = f0) \/ exists r, pre = r ++ [f]).
Proof.
  intros s. induction l as [|p l IH]; intros f0; cbn [pop_front_lt].
  - exists []. auto 8.
  - qtest (nltb (time p) s).
    + destruct (IH p) as (pre & H). destruct (pop_front_lt s p l) as [f l'].
      destruct H as (E & F & H & K). exists (p :: pre). cbn [app]. rewrite <- E. split; [auto|]. split; [auto|]. split; [auto|].
      right. destruct K as [[-> ->]|(r & ->)]; [exists []|exists (p :: r)]; auto.
    + exists []. auto 8.
Qed.

Lemma prepQ_shrink : forall Q t1 l s t, prepQ true Q t1 l s -> l <> [] -> t <= t1 ->
  Forall (fun q => time q <= t) l -> prepQ true Q t l s.
Proof.
  intros Q t1 l s t P. revert t. induction P as [|p z s s' H1 H2 H3 P IH]; intros t N T F; [congruence|].
  inversion F as [|? ? F1 F2]; subst.
  destruct z as [|q z].
  - inversion P; subst. eapply prep_cons with (t' := t); auto; [|constructor].
    intros u U1 U2. apply H3; auto. cbn in *. qlra.
  - eapply prep_cons with (t' := s'); auto. apply IH; auto. discriminate.
Qed.

Lemma prepQ_cut : forall Q e l s t, prepQ true Q e l s -> l <> [] -> s <= t -> t <= e ->
  pop_back_while (fun p => nltb t (time p)) l <> [] /\
  prepQ true Q t (pop_back_while (fun p => nltb t (time p)) l) s.
Proof.
  intros Q e l s t P N S T.
  destruct (pop_back_le t l) as (l2 & E & F1 & F2); [eapply prepQ_ordered; eauto|].
  set (l1 := pop_back_while (fun p => nltb t (time p)) l) in *. clearbody l1. subst l.
  assert (N1 : l1 <> []).
  { intros ->. cbn in *. destruct l2 as [|q l2]; [congruence|]. apply Forall_inv in F2.
    rewrite (prepQ_front _ _ _ _ _ _ P) in F2. qlra. }
  split; [exact N1|].
  apply prepQ_app in P. destruct P as (t1 & P1 & P2). eapply prepQ_shrink; eauto.
  inversion P2; subst; auto. inversion F2; subst. qlra.
Qed.

(** The front half on a signal of closed pieces. *)
Lemma resize_front_q : forall Q x s, crepQ Q x -> beginTime x <= s -> s <= endTime x ->
  exists l e', resize_front x s = Ok (l, endTime x) /\ prepQ true Q e' l s /\ l <> [] /\
    (e' = endTime x \/ e' = s) /\ ((exists q, In q (samples x) /\ s <= time q) -> e' = endTime x) /\
    (forall q, In q l -> time q = s \/ In q (samples x)) /\
    (forall q, In q (samples x) -> s <= time q -> In q l).
Proof.
  intros Q x s [N R] B1 B2. unfold resize_front.
  assert (B : nltb s (beginTime x) = false) by (apply nltb_false; auto). rewrite B.
  pose proof (pop_front_spec s (samples x) default_sample) as (pre & H).
  destruct (pop_front_lt s default_sample (samples x)) as [f l'].
  destruct H as (E & F & H & K).
  rewrite E in R. apply prepQ_app in R. destruct R as (t1 & R1 & R2).
  assert (P : pre = [] \/ exists r, pre = r ++ [f]) by (destruct K as [[-> _]|K]; auto). clear K.
  destruct l' as [|q l'].
  - inversion R2; subst.
    destruct P as [-> |(r & ->)]; [cbn in E; congruence|].
    exists [mkS s (valueAt f s) n0], s. 
    assert (BE : nltb (endTime x) s = false) by (apply nltb_false; auto). rewrite BE.
    split; [reflexivity|]. split; [|split; [discriminate|split; [auto|split; [|split]]]].
    + apply prepQ_app in R1. destruct R1 as (t2 & R1 & R3). inversion R3 as [|? ? ? t3 A1 A2 A3 A4]; subst. inversion A4; subst.
      eapply prep_cons with (t' := s); [reflexivity|qlra| |constructor].
      intros u U1 U2. cbn in U2. assert (u = s) by qlra. subst u. vline.
      replace (line _ s) with (line f s) by (unfold line; cbn; ring). apply A3; [|exact B2].
      rewrite Forall_app in F. destruct F as [_ F]. inversion F; subst. qlra.
    + intros (q & I & L). rewrite E, app_nil_r in I. rewrite Forall_forall in F. specialize (F q I). exfalso. cbn in F. qlra.
    + intros q [<-|[]]. auto.
    + intros q I L. rewrite E, app_nil_r in I. rewrite Forall_forall in F. specialize (F q I). exfalso. cbn in F. qlra.
  - pose proof (prepQ_front _ _ _ _ _ _ R2) as T1.
    qtest (nltb s (time q)).
    + destruct P as [-> |(r & ->)].
      { inversion R1; subst. exfalso. qlra. }
      eexists; exists (endTime x). split; [reflexivity|]. split; [|split; [discriminate|split; [auto|split; [auto|split]]]].
      * apply prepQ_app in R1. destruct R1 as (t2 & R1 & R3). inversion R3 as [|? ? ? t3 A1 A2 A3 A4]; subst. inversion A4; subst.
        eapply prep_cons with (t' := time q); [reflexivity|qlra| |exact R2].
        intros u U1 U2. vline. rewrite line_cut. apply A3; auto.
        rewrite Forall_app in F. destruct F as [_ F]. inversion F; subst. qlra.
      * intros p [<-|I]; auto. right. rewrite E. apply in_or_app. auto.
      * intros p I L. rewrite E in I. apply in_app_or in I. destruct I as [I|I]; [|right; exact I].
        rewrite Forall_forall in F. specialize (F p I). exfalso. cbn in F. qlra.
    + assert (time q = s) by qlra.
      eexists; exists (endTime x). split; [reflexivity|]. split; [|split; [discriminate|split; [auto|split; [auto|split]]]].
      * congruence.
      * intros p I. right. rewrite E. apply in_or_app. auto.
      * intros p I L. rewrite E in I. apply in_app_or in I. destruct I as [I|I]; auto.
        rewrite Forall_forall in F. specialize (F p I). exfalso. cbn in F. qlra.
Qed.

Lemma eps_lt : forall s t : Qc, s <= t -> nltb t (nsub s neps) = false.
Proof.
  intros s t H. apply nltb_false. change (s - Qc_eps <= t).
  assert (0 < Qc_eps) by reflexivity. qlra.
Qed.

(** resize inside the domain. *)
Lemma resize_q : forall Q x s t v, crepQ Q x -> beginTime x <= s -> s <= t -> t <= endTime x ->
  (exists q, In q (samples x) /\ s <= time q) \/ s = t ->
  exists z, resize x s t v = Ok z /\ beginTime z = s /\ endTime z = t /\ crepQ Q z /\
    (forall q, In q (samples z) -> time q = s \/ In q (samples x)) /\
    (forall q, In q (samples x) -> s <= time q -> time q <= t -> In q (samples z)).
Proof.
  intros Q x s t v R B1 B2 B3 G. unfold resize. rewrite eps_lt by auto.
  assert (BT : nltb t s = false) by (apply nltb_false; auto). rewrite BT.
  destruct (resize_front_q Q x s R B1) as (l & e' & E & P & N & Ee & Ge & I1 & I2); [qlra|].
  rewrite E. cbn [bind]. unfold resize_back.
  assert (BE : nltb (endTime x) t = false) by (apply nltb_false; auto). rewrite BE. cbn [bind].
  assert (Te : t <= e').
  { destruct G as [G|G]; [rewrite (Ge G); auto|]. destruct Ee as [-> | ->]; qlra. }
  destruct (prepQ_cut Q e' l s t P N B2 Te) as [N1 P1].
  destruct (pop_back_le t l) as (l2 & E2 & F1 & F2); [eapply prepQ_ordered; eauto|].
  set (l1 := pop_back_while (fun p => nltb t (time p)) l) in *. clearbody l1.
  eexists. split; [reflexivity|].
  destruct l1 as [|p1 l1]; [congruence|].
  cbn [beginTime endTime samples]. split; [auto|]. split; [auto|]. split; [split; auto|]. split.
  - intros q I. apply I1. rewrite E2. apply in_or_app. auto.
  - intros q I L1 L2. specialize (I2 q I L1). rewrite E2 in I2. apply in_app_or in I2. destruct I2 as [I2|I2]; auto.
    rewrite Forall_forall in F2. specialize (F2 q I2). exfalso. cbn in F2. qlra.
Qed.

(** With jumps. *)
Lemma eval_skip : forall (pre l : list smp) q u, eval (q :: l) u <> None -> eval (pre ++ q :: l) u = eval (q :: l) u.
Proof. intros pre l q u H. rewrite eval_app. destruct (eval (q :: l) u); congruence. Qed.

Lemma resize_denotes : forall x s t v, wf x -> beginTime x <= s -> s <= t -> t <= endTime x ->
  (exists q, In q (samples x) /\ s <= time q) \/ s = t ->
  exists z, resize x s t v = Ok z /\ beginTime z = s /\ endTime z = t /\
    ordered (samples z) /\ (exists p l, samples z = p :: l /\ time p = s) /\
    forall u, s <= u -> u <= t -> eval (samples z) u = eval (samples x) u.
Proof.
  intros x s t v (O & _ & p0 & l0 & E0 & H0) B1 B2 B3 G. unfold resize. rewrite eps_lt by auto.
  assert (BT : nltb t s = false) by (apply nltb_false; auto). rewrite BT.
  assert (A : exists l, resize_front x s = Ok (l, endTime x) /\ ordered l /\ (exists p l', l = p :: l' /\ time p = s) /\
    forall u, s <= u -> u <= t -> eval l u = eval (samples x) u).
  { unfold resize_front.
    assert (B : nltb s (beginTime x) = false) by (apply nltb_false; auto). rewrite B.
    pose proof (pop_front_spec s (samples x) default_sample) as (pre & H).
    destruct (pop_front_lt s default_sample (samples x)) as [f l'].
    destruct H as (E & F & H & K).
    assert (P : pre = [] \/ exists r, pre = r ++ [f]) by (destruct K as [[-> _]|K]; auto). clear K.
    destruct l' as [|q l'].
    - rewrite app_nil_r in E. destruct P as [-> |(r & ->)]; [congruence|].
      assert (BE : nltb (endTime x) s = false) by (apply nltb_false; qlra). rewrite BE.
      eexists. split; [reflexivity|]. split; [cbn; auto|]. split; [eexists; eexists; split; [reflexivity|reflexivity]|].
      intros u U1 U2. assert (u = s).
      { destruct G as [(q & I & L)|G]; [|qlra]. rewrite E in I. rewrite Forall_forall in F. specialize (F q I). exfalso. cbn in F. qlra. }
      subst u. rewrite E, eval_back.
      + vline. rewrite eval_cons_all; [|constructor|cbn; qlra]. f_equal. unfold line. cbn. ring.
      + rewrite Forall_app in F. destruct F as [_ F]. inversion F; subst. qlra.
    - qtest (nltb s (time q)).
      + destruct P as [-> |(r & ->)].
        { cbn in E. rewrite E in E0. inversion E0; subst. exfalso. qlra. }
        rewrite E in O. apply ordered_app in O. destruct O as (_ & O & _). 
        eexists. split; [reflexivity|]. split; [|split; [eexists; eexists; split; [reflexivity|reflexivity]|]].
        * destruct O as [O1 O2]. split; [|split; auto]. constructor; [cbn; qlra|]. eapply Forall_le_le; [exact O1|cbn; qlra].
        * intros u U1 U2. rewrite E. rewrite <- app_assoc. cbn [app]. rewrite (eval_app r).
          cbn [eval]. vline. destruct (eval l' u); [reflexivity|]. destruct (nleb (time q) u) eqn:Bq; [reflexivity|].
          cbn [time]. assert (Bu : nleb s u = true) by (apply nleb_true; auto). rewrite Bu.
          assert (Bf : nleb (time f) u = true).
          { apply nleb_true. rewrite Forall_app in F. destruct F as [_ F]. inversion F; subst. qlra. }
          rewrite Bf, line_cut. reflexivity.
      + assert (T : time q = s) by qlra.
        eexists. split; [reflexivity|]. split; [rewrite E in O; apply ordered_app in O; apply O|].
        split; [eexists; eexists; split; [reflexivity|exact T]|].
        intros u U1 U2. rewrite E. rewrite eval_skip; auto.
        destruct (eval_some q l' u) as (w & W); [qlra|congruence]. }
  destruct A as (l & E & Ol & (p & l' & Ep & Tp) & V). rewrite E. cbn [bind]. unfold resize_back.
  assert (BE : nltb (endTime x) t = false) by (apply nltb_false; auto). rewrite BE. cbn [bind].
  destruct (pop_back_le t l) as (l2 & E2 & F1 & F2); auto.
  set (l1 := pop_back_while (fun p => nltb t (time p)) l) in *. clearbody l1.
  assert (N1 : exists l1', l1 = p :: l1').
  { destruct l1 as [|p1 l1]; cbn in E2; [|rewrite Ep in E2; inversion E2; subst; eauto].
    rewrite Ep in E2. rewrite <- E2 in F2. inversion F2; subst. exfalso. qlra. }
  destruct N1 as (l1' & ->).
  eexists. split; [reflexivity|]. cbn [samples beginTime endTime].
  split; [auto|]. split; [auto|]. split; [rewrite E2 in Ol; apply ordered_app in Ol; apply Ol|].
  split; [eexists; eexists; split; [reflexivity|auto]|].
  intros u U1 U2. rewrite <- V by auto. rewrite E2, eval_app.
  assert (Nn : eval l2 u = None).
  { apply eval_none. eapply Forall_impl; [|exact F2]. intros a Ha. cbn in Ha. qlra. }
  rewrite Nn. reflexivity.
Qed.

(** ** shift *)

Lemma line_shifted : forall (p : smp) a u, line (shift_sample a p) u = line p (u - a).
Proof. intros p a u. unfold line, shift_sample, nadd. cbn [time value deriv NumQc]. ring. Qed.

Lemma eval_shift : forall l a t, eval (map (shift_sample a) l) (t + a) = eval l t.
Proof.
  induction l as [|p l IH]; intros a t; [reflexivity|]. cbn [map eval]. rewrite IH.
  destruct (eval l t); [reflexivity|]. rewrite line_shifted. replace (t + a - a) with t by ring.
  change (time (shift_sample a p)) with (time p + a).
  assert (B : nleb (time p + a) (t + a) = nleb (time p) t).
  { destruct (nleb (time p) t) eqn:E; qb; [apply nleb_true|apply nleb_false]; qlra. }
  rewrite B. reflexivity.
Qed.

Lemma prepQ_shift : forall cl Q e l t a, prepQ cl Q e l t ->
  prepQ cl (fun u v => Q (u - a) v) (e + a) (map (shift_sample a) l) (t + a).
Proof.
  intros cl Q e l t a P. induction P as [|p z t t' H1 H2 H3 P IH]; cbn [map]; [constructor|].
  eapply prep_cons with (t' := t' + a); auto.
  - change (time (shift_sample a p)) with (time p + a). rewrite H1. auto.
  - qlra.
  - intros u U1 U2. rewrite line_shifted. apply H3; [qlra|]. destruct cl; cbn in *; qlra.
Qed.

Lemma crepQ_shift : forall Q x a, crepQ Q x -> crepQ (fun u v => Q (u - a) v) (shift x a).
Proof.
  intros Q x a [N R]. split; unfold shift; cbn [samples beginTime endTime].
  - destruct (samples x); [congruence|discriminate].
  - apply (prepQ_shift true Q (endTime x) (samples x) (beginTime x) a). auto.
Qed.
