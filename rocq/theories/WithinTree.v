(** The two bounds of a formula without until stay within BigM, whatever the data and
    the times. *)
From Coq Require Import List QArith Qcanon Bool Lia.
From Verif Require Import Num Base Signal QcTac Spec Robust Repr NegProof Closed SigProof ResizeProof EvProof Transducer StlSpec TreeProof ReadProof AtomProof ExprPass TreeRob StlClaims SafeSignal WithinSignal.
From Verif Require SafeTree Lip.
Import ListNotations.
Local Open Scope Qc_scope.

Section Tree.
Variable E : env Qc.
Variable w : nat.
Hypothesis LIN : e_ip E = LINEAR.
Hypothesis SPC : e_sem E = SPACE.
Hypothesis TR : trace w (e_data E).
Hypothesis HM : 0 <= e_M E.

Notation T := (last_time (e_data E)).
Notation val := (bound_value E).
Notation cst := (eff E).
Notation D := (e_data E).
Notation M := (e_M E).
Notation start := SafeTree.start.
Notation free := SafeTree.free.
Notation side := SafeTree.side.

(** An atom signal: either the data stops before [s], or the signal reaches [s] and
    stays within; [st]: it begins at [s]. *)
Definition known (st : bool) (s : Qc) (z : signal Qc) : Prop :=
  endTime z < s \/ (s <= endTime z /\ inW M z /\ (st = true -> beginTime z = s)).

Fixpoint ready (u d st : bool) (s : Qc) (t : tree Qc) : Prop :=
  match t with
  | TAtom n l _ r => free u d n /\ SafeTree.adone E w n l r /\ start_time n = s /\ known st s (nz n)
  | TNot n c => free u d n /\ start_time n = s /\ ready d u true s c
  | TAnd n l r | TOr n l r => free u d n /\ start_time n = s /\ ready u d true s l /\ ready u d true s r
  | TImp n l r => free u d n /\ start_time n = s /\ ready d u true s l /\ ready u d true s r
  | TEv n i c => free u d n /\ start_time n = s /\ 0 <= val (ibegin i) /\ ready u d false (s + val (ibegin i)) c
  | TAlw n i c => free u d n /\ start_time n = s /\ 0 <= val (ibegin i) /\ ready u d true (s + val (ibegin i)) c
  | _ => False
  end.

Lemma leaf_end : forall l s e L bt et t n k, simple_operand w l -> leaf_tree E l t n k -> SafeTree.xdone E w s e L bt et t -> endTime (tz t) = et.
Proof.
  intros l s e L bt et t n k Sl Lt X. destruct l; cbn [simple_operand leaf_tree] in *; try contradiction.
  - subst t. cbn [SafeTree.xdone] in X. destruct X as (_ & k0 & _ & LD). destruct LD as [_ _ _ (_ & _ & Z) _]. exact Z.
  - destruct Lt as (v' & -> & _). cbn [SafeTree.xdone] in X. destruct X as (k0 & _ & LD). destruct LD as [_ _ _ (_ & _ & Z) _]. exact Z.
Qed.

Lemma leaf_kind : forall l s e v t, simple_operand w l -> compute_rob E (prep E l s e) = Ok (v, t) ->
  exists n k, match l with FSig x c => t = TSig n k x c | FConst p _ => exists c, t = TConst n k p c | _ => False end.
Proof.
  intros l s e v t Sl C. destruct l; cbn [simple_operand] in Sl; try contradiction.
  - change (prep E (FSig var col) s e) with (TSig (fresh s e) (Some 0%nat) var col) in C. cbn [compute_rob] in C.
    destruct (compute_signal _ _ _ _) as [[[v' n'] k']| | | |]; try discriminate C. cbn [bind] in C. injection C as <- <-. eauto.
  - match type of C with compute_rob E ?t0 = _ => set (t0' := t0) in C; assert (K : exists c, t0' = TConst (fresh s e) (Some 0%nat) p c) end.
    { eexists. reflexivity. }
    destruct K as (c & ->). cbn [compute_rob] in C.
    destruct (compute_constant _ _ _ _ _) as [[[[v' n'] k'] c']| | | |]; try discriminate C. cbn [bind] in C. injection C as <- <-. eauto.
Qed.

Lemma leaf_stop : forall l s e v t, simple_operand w l -> compute_rob E (prep E l s e) = Ok (v, t) ->
  forall L bt et, SafeTree.xdone E w s e L bt et t -> endTime (tz t) = et.
Proof.
  intros l s e v t Sl C L bt et X. destruct (leaf_kind l s e v t Sl C) as (n & k & K).
  destruct l; cbn [simple_operand] in Sl; try contradiction.
  - subst t. cbn [SafeTree.xdone] in X. destruct X as (_ & k0 & _ & LD). destruct LD as [_ _ _ (_ & _ & Z) _]. exact Z.
  - destruct K as (c & ->). cbn [SafeTree.xdone] in X. destruct X as (k0 & _ & LD). destruct LD as [_ _ _ (_ & _ & Z) _]. exact Z.
Qed.

Lemma simple_expression : forall l, simple_operand w l -> expression w l.
Proof. intros [] H; cbn [simple_operand expression] in *; try contradiction; try exact I; try exact H; tauto. Qed.

Lemma simple_affine : forall l, simple_operand w l -> affine l.
Proof. intros [] H; cbn in *; try contradiction; exact I. Qed.
Lemma simple_leaf : forall l, simple_operand w l -> is_leaf l.
Proof. intros [] H; cbn in *; try contradiction; exact I. Qed.

Lemma atom_first : forall l op r s e, simple_operand w l -> simple_operand w r -> within cst D M (FAtom l op r) ->
  0 <= e -> s <= e ->
  exists v t', compute_rob E (prep E (FAtom l op r) s e) = Ok (v, t') /\ headed (tz t') /\ ready true true true s t'.
Proof.
  intros l op r s e Sl Sr Wi H0 H1.
  change (prep E (FAtom l op r) s e) with (TAtom (start s e) (prep E l s e) op (prep E r s e)).
  destruct (SafeTree.atom_pass1 E w TR SPC s e (prep E l s e) op (prep E r s e) H0) as (v & l' & r' & z & C1 & C2);
    try (apply SafeTree.xini_build; apply simple_expression; auto).
  do 2 eexists. split; [exact C1|]. pose proof C2 as (_ & HZ & _). split; [exact HZ|]. cbn [ready].
  split; [apply SafeTree.free_start|]. split; [exact C2|]. split; [reflexivity|]. cbn [with_z nz].
  destruct (Qclt_le_dec T s) as [L|L].
  - left.
    destruct (SafeTree.xpass1 E w TR s e (prep E l s e) H0) as (vl & l2 & A1 & A2).
    { apply SafeTree.xini_build. apply simple_expression; auto. }
    assert (EL : l2 = l').
    { clear - C1 A1. cbn [compute_rob] in C1. rewrite A1 in C1. cbn [bind] in C1.
      destruct (compute_rob E (prep E r s e)) as [[? ?]| | | |]; try discriminate C1. cbn [bind] in C1.
      destruct (compute_atom _ _ _ _ _) as [[? ?]| | | |]; try discriminate C1. cbn [bind] in C1. congruence. }
    subst l2. destruct C2 as (_ & _ & EE & _). cbn [with_z nz] in EE. rewrite EE.
    rewrite (leaf_stop l s e vl l' Sl A1 _ _ _ A2).
    destruct (SafeTree.first_facts (map row_time D) s e (SafeTree.times_incr E w TR) (SafeTree.times_some E w TR) H0) as (U & r0 & F1 & F2 & F3 & F4 & F5 & F6 & F7).
    rewrite F5. assert (LU : last U 0 <= T).
    { pose proof (SafeTree.times_incr E w TR) as I. unfold last_time. rewrite F1 in I |- *. destruct (exists_last F2) as (q & x & EU). rewrite EU in *. rewrite last_last.
      clear - I. destruct r0 as [|y r0]; [rewrite app_nil_r, last_last; apply Qcle_refl|].
      assert (K : incr ((q ++ [x]) ++ (y :: r0))) by exact I. clear I. destruct (exists_last (l := y :: r0)) as (r1 & c0 & ER); [discriminate|]. rewrite ER in *.
      rewrite app_assoc in K |- *. rewrite last_last. rewrite <- app_assoc in K. rewrite <- app_assoc in K. apply SafeTree.incr_app in K. destruct K as [_ K].
      cbn [app incr] in K. destruct K as [K _]. apply Forall_app in K. destruct K as [_ K]. inversion K; subst. qlra. }
    destruct (nltb e (last U 0)) eqn:B; qb; qlra.
  - right. destruct (atom_pass1 E w LIN TR SPC l op r s e) as (v2 & n' & tl' & tr' & A1 & A2 & [A3 A4 A5 A6] & _);
      auto using simple_expression; try (left; split; eapply simple_leaf; eassumption); try (eapply simple_affine; eassumption).
    change (prep E (FAtom l op r) s e) with (TAtom (start s e) (prep E l s e) op (prep E r s e)) in A1. rewrite A1 in C1. injection C1 as _ EN _ _. subst n'. cbn [with_z nz] in *.
    split; [rewrite A4; destruct (Lip.qmin_cases e T) as [[-> _]|[-> _]]; auto|]. split; [|intros _; exact A3].
    destruct A5 as [N P]. split; [exact N|]. eapply prepQ_impl; [exact P|]. intros u y _ _ <-.
    cbn [within] in Wi. apply (Wi u). apply (atom_rob E w TR); auto using simple_expression.
Qed.

Lemma known_weaken : forall s z, known true s z -> known false s z.
Proof. intros s z [K|(K1 & K2 & _)]; [left; auto|right]. split; [auto|]. split; [auto|discriminate]. Qed.

(** The trimmed child of an eventually. *)
Lemma ready_trim : forall c s s', ready true true true s c -> headed (tz c) -> s' <= endTime (tz c) ->
  exists z, resize (tz c) s' (endTime (tz c)) n0 = Ok z /\ ready true true false s (set_node c (with_z (node c) z)).
Proof.
  intros c s s' R HZ H. destruct (resize_some_safe (tz c) s' (endTime (tz c)) n0 (or_introl HZ) H) as (z & E1 & E2 & E3 & E4).
  exists z. split; [exact E1|]. destruct c; cbn [ready set_node node] in *; try contradiction; try (destruct R as (R1 & R2 & R3); split; [exact R1|]; split; [exact R2|exact R3]).
  destruct R as (R1 & R2 & R3 & R4). split; [exact R1|]. cbn [with_z nz start_time].
  destruct (SafeTree.rdy_trim E w (fun _ => False) (fun _ _ _ _ _ H => H) (TAtom n c1 op c2) s' n0 (conj R1 R2) HZ H) as (z2 & Y1 & Y2).
  assert (z2 = z) by congruence. subst z2. cbn [SafeTree.rdy set_node node] in Y2. split; [apply Y2|]. split; [exact R3|].
  change (tz (TAtom n c1 op c2)) with (nz n) in *.
  destruct R4 as [K|(K1 & K2 & K3)]; [left; congruence|right]. split; [congruence|]. split; [|discriminate].
  destruct (resize_inW M HM (nz n) s' (endTime (nz n)) n0 K2 H H) as (z2 & G1 & G2 & _); [apply (W_zero M HM s')|].
  assert (z2 = z) by congruence. subst z2. exact G2.
Qed.

Lemma rob_pass : forall f s e, frag val w f -> within cst D M f -> 0 <= e -> s <= e ->
  exists v t', compute_rob E (prep E f s e) = Ok (v, t') /\ headed (tz t') /\ ready true true true s t'.
Proof.
  induction f; intros s e F Wi H0 H1; cbn [frag] in F; try contradiction.
  - destruct F as [Sl Sr]. apply atom_first; auto.
  - change (prep E (FNot f) s e) with (TNot (start s e) (prep E f s e)).
    destruct (IHf s e F Wi H0 H1) as (v & c' & C1 & C2 & C3). cbn [compute_rob]. rewrite C1. cbn [bind].
    destruct (SafeTree.headed_front _ (headed_cnot _ C2)) as (v' & Ev). rewrite Ev. cbn [bind]. do 2 eexists. split; [reflexivity|].
    split; [apply (headed_cnot _ C2)|]. cbn [ready]. split; [apply SafeTree.free_start|]. split; [reflexivity|exact C3].
  - change (prep E (FAnd f1 f2) s e) with (TAnd (start s e) (prep E f1 s e) (prep E f2 s e)). destruct F as [F1 F2]. destruct Wi as [W1 W2].
    destruct (IHf1 s e F1 W1 H0 H1) as (v & l' & C1 & C2 & C3). destruct (IHf2 s e F2 W2 H0 H1) as (v2 & r' & D1 & D2 & D3).
    cbn [compute_rob]. rewrite C1, D1. cbn [bind].
    destruct (compute_and_safe (with_end (tz l') (smax (endTime (tz l')) (endTime (tz r')))) (with_end (tz r') (smax (endTime (tz l')) (endTime (tz r')))) C2 D2) as (z & Z1 & Z2 & _).
    rewrite Z1. cbn [bind]. destruct (SafeTree.headed_front _ Z2) as (v' & Ev). rewrite Ev. cbn [bind]. do 2 eexists. split; [reflexivity|].
    split; [exact Z2|]. cbn [ready]. split; [apply SafeTree.free_start|]. split; [reflexivity|]. auto.
  - change (prep E (FOr f1 f2) s e) with (TOr (start s e) (prep E f1 s e) (prep E f2 s e)). destruct F as [F1 F2]. destruct Wi as [W1 W2].
    destruct (IHf1 s e F1 W1 H0 H1) as (v & l' & C1 & C2 & C3). destruct (IHf2 s e F2 W2 H0 H1) as (v2 & r' & D1 & D2 & D3).
    cbn [compute_rob]. rewrite C1, D1. cbn [bind].
    destruct (compute_or_safe (with_end (tz l') (smax (endTime (tz l')) (endTime (tz r')))) (with_end (tz r') (smax (endTime (tz l')) (endTime (tz r')))) C2 D2) as (z & Z1 & Z2 & _).
    rewrite Z1. cbn [bind]. destruct (SafeTree.headed_front _ Z2) as (v' & Ev). rewrite Ev. cbn [bind]. do 2 eexists. split; [reflexivity|].
    split; [exact Z2|]. cbn [ready]. split; [apply SafeTree.free_start|]. split; [reflexivity|]. auto.
  - change (prep E (FImp f1 f2) s e) with (TImp (start s e) (prep E f1 s e) (prep E f2 s e)). destruct F as [F1 F2]. destruct Wi as [W1 W2].
    destruct (IHf1 s e F1 W1 H0 H1) as (v & l' & C1 & C2 & C3). destruct (IHf2 s e F2 W2 H0 H1) as (v2 & r' & D1 & D2 & D3).
    cbn [compute_rob]. rewrite C1, D1. cbn [bind]. unfold compute_implies.
    destruct (compute_or_safe (cnot (tz l')) (tz r') (headed_cnot _ C2) D2) as (z & Z1 & Z2 & _).
    rewrite Z1. cbn [bind]. destruct (SafeTree.headed_front _ Z2) as (v' & Ev). rewrite Ev. cbn [bind]. do 2 eexists. split; [reflexivity|].
    split; [exact Z2|]. cbn [ready]. split; [apply SafeTree.free_start|]. split; [reflexivity|]. auto.
  - change (prep E (FEv i f) s e) with (TEv (start s e) i (prep E f (s + val (ibegin i)) (e + val (iend i)))).
    destruct F as (F1 & F2 & F3). cbn [within] in Wi.
    destruct (IHf (s + val (ibegin i)) (e + val (iend i)) F3 Wi) as (v & c' & C1 & C2 & C3); [qlra|qlra|].
    cbn [compute_rob]. rewrite C1. cbn [bind]. change (nz (start s e)) with (@empty_signal Qc _).
    destruct (timed_ev_safe M empty_signal (tz c') (val (ibegin i)) (val (iend i)) C2) as (z & Z1 & Z2 & Z3 & Z4).
    rewrite Z1. cbn [bind]. change (end_time (start s e)) with e; change (start_time (start s e)) with s.
    destruct (ready_trim c' (s + val (ibegin i)) (smin (endTime z) e - val (iend i)) C3 C2) as (zc & W1 & W2).
    { rewrite Z4. pose proof (SafeTree.back_by_le (val (ibegin i)) (endTime (tz c'))) as BB. unfold smin. qcase; qlra. }
    change (smin (endTime z) e - val (iend i)) with (nsub (smin (endTime z) e) (val (iend i))) in W1. rewrite W1. cbn [bind].
    destruct (resize_some_safe z s (smax s (smin (endTime z) e)) n0 (or_introl Z2)) as (z' & Y1 & Y2 & _).
    { unfold smax. qcase; qlra. }
    rewrite Y1. cbn [bind]. destruct (SafeTree.headed_front _ Y2) as (v' & Ev). rewrite Ev. cbn [bind]. do 2 eexists. split; [reflexivity|].
    split; [exact Y2|]. cbn [ready]. split; [apply (SafeTree.free_start _ _ s e)|]. split; [reflexivity|]. auto.
  - change (prep E (FAlw i f) s e) with (TAlw (start s e) i (prep E f (s + val (ibegin i)) (e + val (iend i)))).
    destruct F as (F1 & F2 & F3). cbn [within] in Wi.
    destruct (IHf (s + val (ibegin i)) (e + val (iend i)) F3 Wi) as (v & c' & C1 & C2 & C3); [qlra|qlra|].
    cbn [compute_rob]. rewrite C1. cbn [bind]. change (nz (start s e)) with (@empty_signal Qc _).
    destruct (timed_alw_safe M empty_signal (tz c') (val (ibegin i)) (val (iend i)) C2) as (z & Z1 & Z2 & Z3 & Z4).
    rewrite Z1. cbn [bind]. change (end_time (start s e)) with e; change (start_time (start s e)) with s.
    destruct (resize_some_safe z s (smax s (smin (endTime z) e)) n0 (or_introl Z2)) as (z' & Y1 & Y2 & _).
    { unfold smax. qcase; qlra. }
    rewrite Y1. cbn [bind]. destruct (SafeTree.headed_front _ Y2) as (v' & Ev). rewrite Ev. cbn [bind]. do 2 eexists. split; [reflexivity|].
    split; [exact Y2|]. cbn [ready]. split; [apply (SafeTree.free_start _ _ s e)|]. split; [reflexivity|]. auto.
Qed.

(** ** Bounds *)
Lemma front_inW : forall z, inW M z -> exists v, front_value z = Ok v /\ - M <= v /\ v <= M.
Proof. intros z H. exact (inW_front M z H). Qed.

Lemma append_inW : forall ip (t v : Qc), - M <= v -> v <= M -> exists z, appendSample ip empty_signal t v = Ok z /\ inW M z /\ beginTime z = t /\ endTime z = t.
Proof.
  intros ip t v V1 V2. unfold appendSample, appendSample3. cbn [empty_signal samples beginTime endTime]. rewrite andb_false_r.
  assert (G : inW M (mkSig [mkS t v 0] t t)) by (apply inW_const; [apply Qcle_refl|split; auto]).
  destruct ip; (eexists; split; [reflexivity|]; split; [exact G|]; split; reflexivity).
Qed.

Lemma fill_inW : forall ip x s t v d, inW M x -> s <= endTime x -> - M <= v -> v <= M -> - M <= d -> d <= M ->
  exists z z', resize x s t v = Ok z /\ fill_empty ip z s d = Ok z' /\ inW M z' /\ beginTime z' = s /\ s <= endTime z'.
Proof.
  intros ip x s t v d H L V1 V2 D1 D2. destruct (nltb t (nsub s neps)) eqn:B.
  - destruct (append_inW ip s d D1 D2) as (z' & A1 & A2 & A3 & A4). exists empty_signal, z'. unfold resize. rewrite B.
    split; [reflexivity|]. split; [exact A1|]. split; [exact A2|]. split; [exact A3|]. rewrite A4. apply Qcle_refl.
  - assert (R : resize x s t v = resize x s (if nltb t s then s else t) v).
    { unfold resize. rewrite B. destruct (nltb t s) eqn:B2; [|rewrite B, B2; reflexivity].
      rewrite eps_lt by apply Qcle_refl. assert (B3 : nltb s s = false) by (apply nltb_false; apply Qcle_refl). rewrite B3. reflexivity. }
    destruct (resize_inW M HM x s (if nltb t s then s else t) v H L) as (z & E1 & E2 & E3 & E4).
    { qcase; qlra. } { split; auto. }
    exists z, z. rewrite R. split; [exact E1|]. split.
    { unfold fill_empty, is_empty. destruct (samples z) eqn:Es; [exfalso; destruct E2 as [N _]; auto|reflexivity]. }
    split; [exact E2|]. split; [exact E3|]. rewrite E4. qcase; qlra.
Qed.

Definition good (st : bool) (s : Qc) (z : signal Qc) : Prop := inW M z /\ s <= endTime z /\ (st = true -> beginTime z = s).

Lemma good_weaken : forall st s z, inW M z -> beginTime z = s -> s <= endTime z -> good st s z.
Proof. intros st s z H B L. split; [auto|]. split; auto. Qed.

Lemma default_in : forall up : bool, - M <= (if up then TOP M else BOTTOM M) /\ (if up then TOP M else BOTTOM M) <= M.
Proof. intros []; [apply (W_top M HM 0)|apply (W_bottom M HM 0)]. Qed.

Lemma le_qmin : forall s a b, s <= a -> s <= b -> s <= qmin a b.
Proof. intros s a b A B. destruct (Lip.qmin_cases a b) as [[-> _]|[-> _]]; auto. Qed.

Lemma bound_pass : forall t (up : bool) u d st s, (if up then u else d) = true -> ready u d st s t ->
  exists v t', compute_bound E up t = Ok (v, t') /\ (- M <= v /\ v <= M) /\ good st s (side up t') /\
    ready (if up then false else u) (if up then d else false) st s t'.
Proof.
  assert (UN : forall up : bool, (if up then TOP M else BOTTOM M) = (if up then TOP M else BOTTOM M)) by reflexivity.
  assert (B1 := default_in).
  induction t as [n k var c|n k p c|n c IH|n l IHl r IHr|n l IHl r IHr|n l IHl r IHr|n l IHl op r IHr|n c IH|n l IHl r IHr|n l IHl r IHr|n l IHl r IHr|n i c IH|n i c IH|n l IHl i r IHr]; cbn [ready]; intros up u d st s Hs X; try contradiction.
  - destruct X as (F & A & S & K). destruct (SafeTree.atom_pass2 E w TR SPC n l op r A) as (v & l' & r' & C1 & C2 & _).
    change (compute_bound E up (TAtom n l op r)) with (r <- compute_rob E (TAtom n l op r) ;; default_bound E up r).
    rewrite C1. cbn [bind]. unfold default_bound. cbn [snd node]. rewrite (SafeTree.free_side up u d n F Hs), S.
    assert (FIN : forall x, good st s x -> exists v' t', (v <- front_value x;; Ok (v, set_node (TAtom n l' op r') (if up then with_up n x else with_low n x))) = Ok (v', t') /\
      (- M <= v' /\ v' <= M) /\ good st s (side up t') /\ ready (if up then false else u) (if up then d else false) st s t').
    { intros x Hx. destruct (front_inW _ (proj1 Hx)) as (v' & Ev & Wv). rewrite Ev. cbn [bind set_node]. do 2 eexists. split; [reflexivity|].
      split; [exact Wv|]. split; [destruct up; exact Hx|]. cbn [ready]. split; [apply SafeTree.free_put; exact F|]. split; [destruct up; exact C2|].
      destruct up; split; auto. }
    destruct (nltb (endTime (nz n)) s) eqn:B; qb.
    + destruct (append_inW (e_ip E) s (BOTTOM M)) as (x & A1 & A2 & A3 & A4); [apply (B1 false)|apply (B1 false)|]. rewrite A1. cbn [bind].
      apply FIN. apply good_weaken; auto. rewrite A4. apply Qcle_refl.
    + apply FIN. destruct K as [K|(K1 & K2 & K3)]; [exfalso; qlra|]. split; auto.
  - destruct X as (F & S & X). destruct (IH (negb up) d u true s) as (v & c' & C1 & _ & (G1 & G2 & G3) & C3); [destruct up; auto|auto|].
    cbn [compute_bound]. rewrite C1. cbn [bind].
    assert (SE : (if up then tlow c' else tup c') = side (negb up) c') by (destruct up; reflexivity). rewrite SE.
    unfold is_empty. destruct (samples (side (negb up) c')) eqn:Es; [exfalso; destruct G1 as [N _]; auto|]. clear Es.
    destruct (front_inW _ (inW_cnot M HM _ G1)) as (v' & Ev & Wv). rewrite Ev. cbn [bind]. do 2 eexists. split; [reflexivity|].
    split; [exact Wv|]. assert (GG : good st s (cnot (side (negb up) c'))) by (apply good_weaken; [apply inW_cnot; auto|apply G3; reflexivity|exact G2]).
    split; [destruct up; exact GG|]. cbn [ready]. split; [apply SafeTree.free_put; exact F|]. split; [destruct up; exact S|]. destruct up; exact C3.
  - destruct X as (F & S & X1 & X2). destruct (IHl up u d true s Hs X1) as (v & l' & C1 & _ & (G1 & G2 & G3) & C3). destruct (IHr up u d true s Hs X2) as (v2 & r' & D1 & _ & (G4 & G5 & G6) & D3).
    specialize (G3 eq_refl). specialize (G6 eq_refl).
    cbn [compute_bound]. rewrite C1, D1. cbn [bind]. fold (side up l') (side up r').
    destruct (and_inW M _ _ G1 G4) as (z & Z1 & Z2 & Z3 & Z4). { rewrite G3, G6, qmax_same. apply le_qmin; auto. }
    rewrite G3, G6, qmax_same in Z3. rewrite Z1. cbn [bind]. rewrite S.
    match goal with |- context [resize z s ?t ?dd] => destruct (fill_inW (e_ip E) z s t dd dd Z2) as (z1 & z2 & Y1 & Y2 & Y3 & Y4 & Y5) end;
      try apply (B1 up). { rewrite Z4. apply le_qmin; auto. }
    rewrite Y1. cbn [bind]. rewrite Y2. cbn [bind]. destruct (front_inW _ Y3) as (v' & Ev & Wv). rewrite Ev. cbn [bind]. do 2 eexists. split; [reflexivity|].
    split; [exact Wv|]. split; [destruct up; apply good_weaken; auto|]. cbn [ready]. split; [apply SafeTree.free_put; exact F|]. split; [destruct up; exact S|auto].
  - destruct X as (F & S & X1 & X2). destruct (IHl up u d true s Hs X1) as (v & l' & C1 & _ & (G1 & G2 & G3) & C3). destruct (IHr up u d true s Hs X2) as (v2 & r' & D1 & _ & (G4 & G5 & G6) & D3).
    specialize (G3 eq_refl). specialize (G6 eq_refl).
    cbn [compute_bound]. rewrite C1, D1. cbn [bind]. fold (side up l') (side up r').
    destruct (or_inW M _ _ G1 G4) as (z & Z1 & Z2 & Z3 & Z4). { rewrite G3, G6, qmax_same. apply le_qmin; auto. }
    rewrite G3, G6, qmax_same in Z3. rewrite Z1. cbn [bind]. rewrite S.
    match goal with |- context [resize z s ?t ?dd] => destruct (fill_inW (e_ip E) z s t dd dd Z2) as (z1 & z2 & Y1 & Y2 & Y3 & Y4 & Y5) end;
      try apply (B1 up). { rewrite Z4. apply le_qmin; auto. }
    rewrite Y1. cbn [bind]. rewrite Y2. cbn [bind]. destruct (front_inW _ Y3) as (v' & Ev & Wv). rewrite Ev. cbn [bind]. do 2 eexists. split; [reflexivity|].
    split; [exact Wv|]. split; [destruct up; apply good_weaken; auto|]. cbn [ready]. split; [apply SafeTree.free_put; exact F|]. split; [destruct up; exact S|auto].
  - destruct X as (F & S & X1 & X2). destruct (IHl (negb up) d u true s) as (v & l' & C1 & _ & (G1 & G2 & G3) & C3); [destruct up; auto|auto|].
    destruct (IHr up u d true s Hs X2) as (v2 & r' & D1 & _ & (G4 & G5 & G6) & D3).
    specialize (G3 eq_refl). specialize (G6 eq_refl).
    cbn [compute_bound]. rewrite C1, D1. cbn [bind]. fold (side up r').
    assert (SE : (if up then tlow l' else tup l') = side (negb up) l') by (destruct up; reflexivity). rewrite SE.
    destruct (or_inW M (cnot (side (negb up) l')) _ (inW_cnot M HM _ G1) G4) as (z & Z1 & Z2 & Z3 & Z4).
    { cbn [compute_not beginTime endTime]. rewrite G3, G6, qmax_same. apply le_qmin; auto. }
    cbn [compute_not beginTime endTime] in Z3, Z4. rewrite G3, G6, qmax_same in Z3. rewrite Z1. cbn [bind]. rewrite S.
    match goal with |- context [resize z s ?t ?dd] => destruct (fill_inW (e_ip E) z s t dd dd Z2) as (z1 & z2 & Y1 & Y2 & Y3 & Y4 & Y5) end;
      try apply (B1 up). { rewrite Z4. apply le_qmin; auto. }
    rewrite Y1. cbn [bind]. rewrite Y2. cbn [bind]. destruct (front_inW _ Y3) as (v' & Ev & Wv). rewrite Ev. cbn [bind]. do 2 eexists. split; [reflexivity|].
    split; [exact Wv|]. split; [destruct up; apply good_weaken; auto|]. cbn [ready]. split; [apply SafeTree.free_put; exact F|]. split; [destruct up; exact S|].
    split; [destruct up; exact C3|exact D3].
  - destruct X as (F & S & HA & X). destruct (IH up u d false _ Hs X) as (v & c' & C1 & _ & (G1 & G2 & _) & C3). cbn [compute_bound]. rewrite C1. cbn [bind]. fold (side up c').
    rewrite (SafeTree.free_side up u d n F Hs), S. destruct (nltb (endTime (side up c')) (val (ibegin i))).
    + destruct (append_inW (e_ip E) s (if up then TOP M else BOTTOM M)) as (x & A1 & A2 & A3 & A4); try apply (B1 up). rewrite A1. cbn [bind].
      assert (GG : good st s x) by (apply good_weaken; auto; rewrite A4; apply Qcle_refl).
      do 2 eexists. split; [reflexivity|]. split; [apply (B1 up)|]. split; [destruct up; exact GG|]. cbn [ready]. split; [apply SafeTree.free_put; exact F|].
      split; [destruct up; exact S|]. auto.
    + destruct (timed_ev_inW M HM empty_signal (side up c') (val (ibegin i)) (val (iend i)) G1) as (z & Z1 & Z2 & Z3 & Z4).
      rewrite Z1. cbn [bind]. assert (EZ : s <= endTime z) by (rewrite Z4; unfold back_by; destruct (Qclt_le_dec 0 (val (ibegin i))); qlra).
      assert (Y : exists z1 z2, (if up
         then resize z s (smin (nadd (nsub (endTime z) (val (iend i))) (val (ibegin i))) (end_time n)) n0
         else resize z s (smax s (smin (endTime z) (end_time n))) n0) = Ok z1 /\
         fill_empty (e_ip E) z1 s (if up then TOP M else BOTTOM M) = Ok z2 /\ inW M z2 /\ beginTime z2 = s /\ s <= endTime z2).
      { destruct up; apply fill_inW; auto; try apply (W_zero M HM 0); try apply (B1 true); try apply (B1 false). }
      destruct Y as (z1 & z2 & Y1 & Y2 & Y3 & Y4 & Y5). cbv zeta. rewrite Y1. cbn [bind]. rewrite Y2. cbn [bind].
      destruct (front_inW _ Y3) as (v' & Ev & Wv). rewrite Ev. cbn [bind]. do 2 eexists. split; [reflexivity|].
      split; [exact Wv|]. split; [destruct up; apply good_weaken; auto|]. cbn [ready]. split; [apply SafeTree.free_put; exact F|]. split; [destruct up; exact S|]. auto.
  - destruct X as (F & S & HA & X). destruct (IH up u d true _ Hs X) as (v & c' & C1 & _ & (G1 & G2 & _) & C3). cbn [compute_bound]. rewrite C1. cbn [bind]. fold (side up c').
    rewrite (SafeTree.free_side up u d n F Hs), S. destruct (nltb (endTime (side up c')) (val (ibegin i))).
    + destruct (append_inW (e_ip E) s (if up then TOP M else BOTTOM M)) as (x & A1 & A2 & A3 & A4); try apply (B1 up). rewrite A1. cbn [bind].
      assert (GG : good st s x) by (apply good_weaken; auto; rewrite A4; apply Qcle_refl).
      do 2 eexists. split; [reflexivity|]. split; [apply (B1 up)|]. split; [destruct up; exact GG|]. cbn [ready]. split; [apply SafeTree.free_put; exact F|].
      split; [destruct up; exact S|]. auto.
    + destruct (timed_alw_inW M HM empty_signal (side up c') (val (ibegin i)) (val (iend i)) G1) as (z & Z1 & Z2 & Z3 & Z4).
      rewrite Z1. cbn [bind]. assert (EZ : s <= endTime z) by (rewrite Z4; unfold back_by; destruct (Qclt_le_dec 0 (val (ibegin i))); qlra).
      assert (Y : exists z1 z2, (if up
         then resize z s (smax s (smin (endTime z) (end_time n))) n0
         else resize z s (smin (nadd (nsub (endTime z) (val (iend i))) (val (ibegin i))) (end_time n)) n0) = Ok z1 /\
         fill_empty (e_ip E) z1 s (if up then TOP M else BOTTOM M) = Ok z2 /\ inW M z2 /\ beginTime z2 = s /\ s <= endTime z2).
      { destruct up; apply fill_inW; auto; try apply (W_zero M HM 0); try apply (B1 true); try apply (B1 false). }
      destruct Y as (z1 & z2 & Y1 & Y2 & Y3 & Y4 & Y5). cbv zeta. rewrite Y1. cbn [bind]. rewrite Y2. cbn [bind].
      destruct (front_inW _ Y3) as (v' & Ev & Wv). rewrite Ev. cbn [bind]. do 2 eexists. split; [reflexivity|].
      split; [exact Wv|]. split; [destruct up; apply good_weaken; auto|]. cbn [ready]. split; [apply SafeTree.free_put; exact F|]. split; [destruct up; exact S|]. auto.
Qed.
End Tree.

Theorem bounds_in : forall w E t f s e, usual w E -> stands_for t f -> frag (bound_value E) w f -> 0 <= e -> s <= e ->
  within (eff E) (e_data E) (e_M E) f -> 0 <= e_M E ->
  exists r lo up, numbers (evaluate E t s e) = Ok (r, lo, up) /\
    (- e_M E <= lo /\ lo <= e_M E) /\ (- e_M E <= up /\ up <= e_M E).
Proof.
  intros w E t f s e (LIN & SPC & TR) SF F H0 H1 Wi HM.
  rewrite (evaluate_skel E t (build f) s e SF). unfold evaluate.
  destruct (rob_pass E w LIN SPC TR HM f s e F Wi H0 H1) as (v & t1 & C1 & _ & C3). unfold prep in C1. rewrite C1. cbn [bind].
  destruct (bound_pass E w SPC TR HM t1 false true true true s eq_refl C3) as (v2 & t2 & D1 & D2 & _ & D3). rewrite D1. cbn [bind].
  destruct (bound_pass E w SPC TR HM t2 true true false true s eq_refl D3) as (v3 & t3 & G1 & G2 & _ & G3). rewrite G1. cbn [bind numbers].
  exists v, v2, v3. auto.
Qed.
