(** The interval passes over a whole formula. *)
From Coq Require Import List QArith Qcanon Bool String Lia.
From Verif Require Import Num Base Signal QcTac Spec Robust Repr AndProof NegProof SimplifyProof Lip Closed SigProof ResizeProof EvProof PlateauProof BoundedProof TimedProof Transducer StlSpec TreeProof ReadProof AtomProof ExprPass NodeProof TreeRob SafeSignal.
From Verif Require SafeTree.
Import ListNotations.
Local Open Scope Qc_scope.

Lemma pop_back_none : forall A (f : A -> bool) l, Forall (fun a => f a = false) l -> pop_back_while f l = l.
Proof.
  intros A f l H. destruct (pop_back_spec A f l) as (l2 & E1 & E2 & _).
  destruct l2 as [|a l2]; [rewrite app_nil_r in E1; auto|]. exfalso.
  rewrite Forall_forall in H. inversion E2; subst. rewrite H in H2; [discriminate|]. rewrite E1. apply in_or_app. right. left. reflexivity.
Qed.

Section Bound.
Variable E : env Qc.
Variable w : nat.
Hypothesis LIN : e_ip E = LINEAR.
Hypothesis SPC : e_sem E = SPACE.
Hypothesis TR : trace w (e_data E).

Notation T := (last_time (e_data E)).
Notation val := (bound_value E).
Notation cst := (eff E).
Notation D := (e_data E).
Notation M := (e_M E).
Notation Rob := (rob cst val D).

(** ** What the robustness pass leaves for the interval passes *)
Definition atom_kept (l : fml Qc) op r (s e : Qc) (B : Qc -> Prop) (z : signal Qc) : Prop :=
  B (beginTime z) /\ crepQ (fun u v => xdiff E l op r (qmax u s) = v) z /\ In s (map time (samples z)) /\
  (forall t, In t (map row_time D) -> s <= t -> t <= qmin e T -> In t (map time (samples z))).

Fixpoint ready (f : fml Qc) (s e : Qc) (B : Qc -> Prop) (t : tree Qc) {struct f} : Prop :=
  match f, t with
  | FAtom l op r, TAtom n tl op' tr => op' = op /\ atom_state E w s e n tl tr /\ atom_kept l op r s e B (nz n)
  | FNot c, TNot n c' => ready c s e (fun x => x = s) c'
  | FAnd l r, TAnd n l' r' | FOr l r, TOr n l' r' | FImp l r, TImp n l' r' =>
      start_time n = s /\ ready l s e (fun x => x = s) l' /\ ready r s e (fun x => x = s) r'
  | FEv i c, TEv n i' c' => i' = i /\ start_time n = s /\ end_time n = e /\
      ready c (s + val (ibegin i)) (e + val (iend i))
        (fun x => x = s + val (ibegin i) \/ (x <= s + val (ibegin i) /\ x + val (iend i) <= e)) c'
  | FAlw i c, TAlw n i' c' => i' = i /\ start_time n = s /\ end_time n = e /\
      ready c (s + val (ibegin i)) (e + val (iend i)) (fun x => x = s + val (ibegin i)) c'
  | _, _ => False
  end.

Definition is_atom (f : fml Qc) : bool := match f with FAtom _ _ _ => true | _ => false end.

Lemma ready_node : forall f s e B B' t z, is_atom f = false -> ready f s e B t ->
  ready f s e B' (set_node t (with_z (node t) z)).
Proof.
  intros f s e B B' t z A R. destruct f; try discriminate A; destruct t; cbn [ready set_node node with_z start_time end_time] in *; auto.
Qed.

Lemma atom_late : forall l op r s e z, expression w l -> expression w r -> s <= T ->
  endTime z = qmin e T -> atom_kept l op r s e (fun x => x <= s) z ->
  forall lo t, settled cst val D (FAtom l op r) lo e -> s <= t -> t <= lo -> t < qmin e T ->
  late (fun u => xdiff E l op r (qmax u s)) z t.
Proof.
  intros l op r s e z Sl Sr HT EN (K1 & K2 & K3 & K4) lo t S T1 T2 T3.
  assert (TI : In T (map row_time D)).
  { unfold last_time. destruct TR as (ND & _). destruct D as [|d0 dd] using rev_ind; [congruence|].
    rewrite map_app. cbn [map]. rewrite last_last. apply in_or_app. right. left. reflexivity. }
  assert (FROM : forall t', In t' (map time (samples z)) -> t <= t' -> late (fun u => xdiff E l op r (qmax u s)) z t).
  { intros t' I L. apply in_map_iff in I. destruct I as (q & Tq & Iq). left. exists q. split; auto. rewrite Tq. auto. }
  destruct (Qclt_le_dec T e) as [TE|TE].
  { rewrite qmin_r in T3 by qlra. apply (FROM T); [|qlra]. apply K4; auto. rewrite qmin_r by qlra. apply Qcle_refl. }
  rewrite qmin_l in * by auto.
  cbn [settled] in S. destruct S as [(t' & I & T4 & T5)|S].
  - apply (FROM t'); [|qlra]. apply K4; auto. qlra.
  - apply late_of with (lo := lo); auto; rewrite ?EN; try qlra. intros c C. apply S.
    intros u v x U1 U2 A1 A2.
    apply (atom_rob E w TR) in A1; auto. apply (atom_rob E w TR) in A2; auto. subst v x.
    pose proof (C u U1 U2) as C'. rewrite !qmax_l in C' by qlra. exact C'.
Qed.


Lemma adone_trim : forall n tl tr s v z, SafeTree.adone E w n tl tr -> s <= endTime (nz n) ->
  resize (nz n) s (endTime (nz n)) v = Ok z -> SafeTree.adone E w (with_z n z) tl tr.
Proof.
  intros n tl tr s v z ((s0 & e0 & L & bt & et & X1 & X2 & X3 & X4 & X5) & R3 & R4 & R5) H Z.
  destruct (resize_some_safe (nz n) s (endTime (nz n)) v (or_introl R3) H) as (z1 & E1 & E2 & _).
  destruct (resize_some (nz n) s (endTime (nz n)) v) as (z2 & F1 & F2 & F3 & F4 & F5); auto.
  { apply SafeTree.headed_some; auto. }
  { apply removelast_forall; auto. }
  assert (z1 = z) by congruence. assert (z2 = z) by congruence. subst z1 z2.
  split; [|split; [exact E2|split]]; cbn [with_z nz]; rewrite ?F2; auto.
  exists s0, e0, L, bt, et. auto.
Qed.

Lemma atom_trim : forall l op r s e n tl tr s' v, s' <= s -> s <= T -> s <= e ->
  atom_state E w s e n tl tr -> atom_kept l op r s e (fun x => x = s) (nz n) ->
  exists z, resize (nz n) s' (endTime (nz n)) v = Ok z /\ endTime z = endTime (nz n) /\ samples z <> [] /\
    atom_kept l op r s e (fun x => x = s') z.
Proof.
  intros l op r s e n tl tr s' v H HT He [A1 A2 A4 AD] (K1 & K2 & K3 & K4).
  set (x := nz n) in *. clearbody x. assert (SX : s <= endTime x) by (rewrite A4; destruct (qmin_cases e T) as [[-> ?]|[-> ?]]; auto).
  destruct (Qclt_le_dec s' s) as [D1|D1].
  2:{ assert (s' = s) by (apply Qcle_antisym; auto). subst s'.
      destruct (resize_q _ x s (endTime x) v K2) as (z & Z1 & Z2 & Z3 & Z4 & Z5 & Z6); try qlra.
      { left. destruct (crepQ_front _ _ K2) as (p & q & S1 & S2 & _). exists p. rewrite S1. split; [left; reflexivity|]. rewrite S2, K1. apply Qcle_refl. }
      exists z. split; [exact Z1|]. split; [exact Z3|]. split; [apply Z4|].
      assert (KP : forall t, s <= t -> t <= endTime x -> In t (map time (samples x)) -> In t (map time (samples z))).
      { intros t L1 L2 I. apply in_map_iff in I. destruct I as (q & Tq & Iq). apply in_map_iff. exists q. split; auto.
        apply Z6; auto; rewrite Tq; auto. }
      split; [exact Z2|]. split; [exact Z4|]. split; [apply KP; auto; apply Qcle_refl|].
      intros t I L1 L2. apply KP; auto. rewrite A4; auto. }
  destruct (crepQ_front _ _ K2) as (p & q & S1 & S2 & S3). destruct K2 as [_ P].
  unfold resize. rewrite eps_lt by qlra.
  assert (BT : nltb (endTime x) s' = false) by (apply nltb_false; qlra). rewrite BT.
  unfold resize_front. assert (BB : nltb s' (beginTime x) = true) by (apply nltb_true; rewrite K1; auto). rewrite BB.
  rewrite S1 in *. cbn [deref bind]. unfold resize_back.
  assert (B2 : nltb (endTime x) (endTime x) = false) by (apply nltb_false; apply Qcle_refl). rewrite B2. cbn [bind].
  pose proof P as TT; apply prepQ_le_end in TT.
  assert (PB : pop_back_while (fun p0 => nltb (endTime x) (time p0)) (mkS s' (value p) n0 :: p :: q) = mkS s' (value p) n0 :: p :: q).
  { apply pop_back_none. constructor; [apply nltb_false; cbn [time]; qlra|].
    apply Forall_forall. intros y I. rewrite Forall_forall in TT. apply nltb_false. auto. }
  rewrite PB. eexists. split; [reflexivity|]. cbn [endTime samples beginTime]. split; [reflexivity|]. split; [discriminate|].
  split; [reflexivity|]. split; [|split].
  - split; [discriminate|]. cbn [endTime samples beginTime]. eapply prep_cons with (t' := s); auto; cbn [time]; try qlra.
    + intros u U1 U2. cbn [rlt] in U2. rewrite line0. rewrite qmax_r by qlra. rewrite <- S3, K1. rewrite qmax_r by qlra. reflexivity.
    + pose proof P as P'. rewrite K1 in P'. exact P'.
  - cbn [map]. right. exact K3.
  - intros t I L1 L2. cbn [map]. right. apply K4; auto.
Qed.

(** An atom directly below eventually. *)
Lemma ev_atom : forall i l op r s e n tl tr z0, expression w l -> expression w r ->
  let a := val (ibegin i) in let b := val (iend i) in
  0 <= a -> a <= b -> s <= e -> s + a <= T -> within cst D M (FAtom l op r) ->
  (a < b -> s < e -> settled cst val D (FAtom l op r) (s + b) (e + b)) ->
  atom_state E w (s + a) (e + b) n tl tr -> atom_kept l op r (s + a) (e + b) (fun x => x = s + a) (nz n) ->
  timed true M empty_signal (nz n) a b = Ok z0 -> endTime z0 = qmin (e + b) T - a.
Proof.
  intros i l op r s e n tl tr z0 Sl Sr a b Ha Hab H HT W S ST K Z.
  pose proof K as (K1 & K2 & K3 & K4). destruct ST as [A1 A2 A4 _].
  destruct (timed_q true M empty_signal _ (nz n) a b K2 Ha Hab) as (z & Z1 & Z2 & Z3 & _).
  - intros u U1 U2. apply (W (qmax u (s + a))). apply (atom_rob E w TR); auto.
  - intros D1 D2. rewrite K1, A4 in *.
    assert (SE : s < e). { destruct (qmin_cases (e + b) T) as [[Q ?]|[Q ?]]; rewrite Q in D2; qlra. }
    apply (atom_late l op r (s + a) (e + b) (nz n) Sl Sr HT A4) with (lo := s + b); try qlra.
    + split; [rewrite K1; apply Qcle_refl|]. auto.
    + apply S; qlra.
  - rewrite Z in Z1. injection Z1 as ->. rewrite Z3, A4. reflexivity.
Qed.

Lemma ready_pass : forall f s e v t, afrag val w f -> 0 <= s -> s <= e -> started val T f s -> within cst D M f ->
  regular cst val D f s e -> uncut val T f s e -> compute_rob E (prep E f s e) = Ok (v, t) ->
  ready f s e (fun x => x = s) t.
Proof.
  induction f; intros s e v0 t F H0 H1 ST W RS UC C; cbn [afrag] in F; try contradiction.
  - destruct F as ((Xl & Xr) & Al & Ar). cbn [started] in ST.
    destruct (atom_pass1 E w LIN TR SPC f1 op f2 s e) as (v & n' & tl' & tr' & A1 & A2 & [A3 A4 A5 A6] & _); auto; try qlra.
    rewrite A1 in C. injection C as <- <-. cbn [ready]. split; [reflexivity|]. split; [exact A2|].
    split; [exact A3|]. split.
    { destruct A5 as [N P]. split; auto. eapply prepQ_impl; [exact P|]. intros u y U1 U2 <-. cbn beta.
      rewrite A3 in U1. rewrite qmax_l; auto. }
    split; auto.
    destruct (crepQ_front _ _ A5) as (p & q & S1 & S2 & _). rewrite S1. left. congruence.
  - change (prep E (FNot f) s e) with (TNot (fresh s e) (prep E f s e)) in C. cbn [compute_rob] in C.
    destruct (compute_rob E (prep E f s e)) as [[vc tc]| | | |] eqn:Cc; try discriminate C. cbn [bind] in C.
    destruct (front_value (cnot (tz tc))); try discriminate C. cbn [bind] in C. injection C as <- <-. cbn [ready].
    eapply IHf; eauto.
  - destruct F as [F1 F2]. destruct ST as [ST1 ST2]. destruct W as [W1 W2]. destruct RS as [RS1 RS2]. destruct UC as [U1 U2].
    change (prep E (FAnd f1 f2) s e) with (TAnd (fresh s e) (prep E f1 s e) (prep E f2 s e)) in C. cbn [compute_rob] in C.
    destruct (compute_rob E (prep E f1 s e)) as [[v1 t1]| | | |] eqn:C1; try discriminate C. cbn [bind] in C.
    destruct (compute_rob E (prep E f2 s e)) as [[v2 t2]| | | |] eqn:C2; try discriminate C. cbn [bind] in C.
    match type of C with bind ?m _ = _ => destruct m as [z| | | |]; try discriminate C end. cbn [bind] in C.
    destruct (front_value z); try discriminate C. cbn [bind] in C. injection C as <- <-. cbn [ready].
    split; [reflexivity|]. split; eauto.
  - destruct F as [F1 F2]. destruct ST as [ST1 ST2]. destruct W as [W1 W2]. destruct RS as [RS1 RS2]. destruct UC as [U1 U2].
    change (prep E (FOr f1 f2) s e) with (TOr (fresh s e) (prep E f1 s e) (prep E f2 s e)) in C. cbn [compute_rob] in C.
    destruct (compute_rob E (prep E f1 s e)) as [[v1 t1]| | | |] eqn:C1; try discriminate C. cbn [bind] in C.
    destruct (compute_rob E (prep E f2 s e)) as [[v2 t2]| | | |] eqn:C2; try discriminate C. cbn [bind] in C.
    match type of C with bind ?m _ = _ => destruct m as [z| | | |]; try discriminate C end. cbn [bind] in C.
    destruct (front_value z); try discriminate C. cbn [bind] in C. injection C as <- <-. cbn [ready].
    split; [reflexivity|]. split; eauto.
  - destruct F as [F1 F2]. destruct ST as [ST1 ST2]. destruct W as [W1 W2]. destruct RS as [RS1 RS2]. destruct UC as [U1 U2].
    change (prep E (FImp f1 f2) s e) with (TImp (fresh s e) (prep E f1 s e) (prep E f2 s e)) in C. cbn [compute_rob] in C.
    destruct (compute_rob E (prep E f1 s e)) as [[v1 t1]| | | |] eqn:C1; try discriminate C. cbn [bind] in C.
    destruct (compute_rob E (prep E f2 s e)) as [[v2 t2]| | | |] eqn:C2; try discriminate C. cbn [bind] in C.
    match type of C with bind ?m _ = _ => destruct m as [z| | | |]; try discriminate C end. cbn [bind] in C.
    destruct (front_value z); try discriminate C. cbn [bind] in C. injection C as <- <-. cbn [ready].
    split; [reflexivity|]. split; eauto.
  - destruct F as (F1 & F2 & F3). cbn [started] in ST. cbn [within] in W. cbn [regular] in RS. destruct RS as [RS1 RS2].
    change (prep E (FEv i f) s e) with (TEv (fresh s e) i (prep E f (s + val (ibegin i)) (e + val (iend i)))) in C. cbn [compute_rob] in C.
    destruct (compute_rob E (prep E f (s + val (ibegin i)) (e + val (iend i)))) as [[vc tc]| | | |] eqn:Cc; try discriminate C. cbn [bind] in C.
    change (nz (fresh s e)) with (@empty_signal Qc _) in C. change (start_time (fresh s e)) with s in C. change (end_time (fresh s e)) with e in C.
    destruct (compute_timed_eventually M empty_signal (tz tc) (val (ibegin i)) (val (iend i))) as [z0| | | |] eqn:Z0; try discriminate C. cbn [bind] in C.
    match type of C with bind ?m _ = _ => destruct m as [zc| | | |] eqn:ZC; try discriminate C end. cbn [bind] in C.
    match type of C with bind ?m _ = _ => destruct m as [z'| | | |] eqn:ZE; try discriminate C end. cbn [bind] in C.
    destruct (front_value z'); try discriminate C. cbn [bind] in C. injection C as <- <-. cbn [ready].
    split; [reflexivity|]. split; [reflexivity|]. split; [reflexivity|].
    destruct (is_atom f) eqn:IA.
    + destruct f as [| | | | | |l op r| | | | | | |]; try discriminate IA.
      cbn [uncut] in UC. cbn [afrag] in F3. destruct F3 as ((Sl & Sr) & Al & Ar). cbn [started] in ST.
      assert (RD : ready (FAtom l op r) (s + val (ibegin i)) (e + val (iend i)) (fun x => x = s + val (ibegin i)) tc)
        by (eapply IHf; [cbn [afrag]; auto| | | | | | |exact Cc]; auto; try qlra; exact I).
      destruct tc as [| | | | | |n tl op' tr| | | | | | |]; cbn [ready] in RD; try contradiction. destruct RD as (-> & AS & K).
      cbn [tz node] in *.
      assert (EZ : endTime z0 = qmin (e + val (iend i)) T - val (ibegin i)) by (apply (ev_atom i l op r s e n tl tr z0 Sl Sr F1 F2 H1 ST W RS1 AS K Z0)).
      assert (ET : smin (endTime z0) e = qmin (T - val (ibegin i)) e).
      { rewrite smin_qmin, EZ. destruct (qmin_cases (e + val (iend i)) T) as [[-> ?]|[-> ?]]; auto.
        rewrite !qmin_r by qlra. reflexivity. }
      rewrite ET in ZC. cbn [set_node ready].
      change (nsub (qmin (T - val (ibegin i)) e) (val (iend i))) with (qmin (T - val (ibegin i)) e - val (iend i)) in ZC.
      destruct (atom_trim l op r (s + val (ibegin i)) (e + val (iend i)) n tl tr (qmin (T - val (ibegin i)) e - val (iend i)) n0 UC ST ltac:(qlra) AS K)
        as (z & Z1 & Z2 & Z3 & K1 & K2).
      unfold tz in ZC. cbn [node] in ZC. rewrite Z1 in ZC. injection ZC as <-. split; [reflexivity|]. split.
      { pose proof AS as [A1 A2 A3 A4]. split; cbn [with_z start_time end_time nz]; auto; [rewrite Z2; auto|].
        eapply (adone_trim n tl tr); [exact A4| |exact Z1]. rewrite A3. destruct (qmin_cases (e + val (iend i)) T) as [[-> ?]|[-> ?]]; qlra. }
      split; [|exact K2]. cbn [with_z nz]. right. rewrite K1.
      split; [exact UC|]. destruct (qmin_cases (T - val (ibegin i)) e) as [[-> ?]|[-> ?]]; qlra.
    + eapply ready_node; auto. eapply IHf; eauto; try qlra. destruct f; try discriminate IA; exact UC.
  - destruct F as (F1 & F2 & F3). cbn [started] in ST. cbn [within] in W. cbn [regular] in RS. destruct RS as [RS1 RS2]. cbn [uncut] in UC.
    change (prep E (FAlw i f) s e) with (TAlw (fresh s e) i (prep E f (s + val (ibegin i)) (e + val (iend i)))) in C. cbn [compute_rob] in C.
    destruct (compute_rob E (prep E f (s + val (ibegin i)) (e + val (iend i)))) as [[vc tc]| | | |] eqn:Cc; try discriminate C. cbn [bind] in C.
    match type of C with bind ?m _ = _ => destruct m as [z0| | | |]; try discriminate C end. cbn [bind] in C.
    match type of C with bind ?m _ = _ => destruct m as [z'| | | |] eqn:ZE; try discriminate C end. cbn [bind] in C.
    destruct (front_value z'); try discriminate C. cbn [bind] in C. injection C as <- <-. cbn [ready].
    split; [reflexivity|]. split; [reflexivity|]. split; [reflexivity|]. eapply IHf; eauto; qlra.
Qed.
End Bound.
