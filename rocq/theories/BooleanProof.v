(** Boolean abstraction and time robustness. *)
From Coq Require Import List QArith Qcanon Bool Lia.
From Verif Require Import Num Base Signal QcTac Spec Robust Repr AndProof SimplifyProof.
Import ListNotations.
Local Open Scope Qc_scope.

(** What the piece [p] contributes at [t]: 1 when it is positive, except that a piece
    that starts at zero counts as 0, and 1 when it rises from below and reaches zero. *)
Definition bit (p : smp) (t : Qc) : Qc :=
  if Qclt_le_dec 0 (value p) then if Qclt_le_dec 0 (line p t) then 1 else 0
  else if Qclt_le_dec (value p) 0 then if Qclt_le_dec (line p t) 0 then 0 else 1
  else 0.

(** The piece in force at [t]. *)
Definition active (l : list smp) (t : Qc) (p : smp) : Prop :=
  exists l1 l2, l = l1 ++ p :: l2 /\ time p <= t /\ Forall (fun q => t < time q) l2.

Lemma mul_pos : forall a c : Qc, 0 < a -> 0 < c -> 0 < a * c.
Proof. intros. qnra. Qed.
Lemma mul_pos_inv : forall a c : Qc, 0 < a -> 0 < a * c -> 0 < c.
Proof. intros a c A H. destruct (Qclt_le_dec 0 c); auto. exfalso. assert (0 <= a * - c) by qnra. qlra. Qed.

(** The zero of a piece that climbs from below, or falls from above. *)
Lemma zero_up : forall p u, value p < 0 -> 0 < deriv p ->
  let z := time p - value p / deriv p in
  time p < z /\ (u < z -> line p u < 0) /\ (z <= u -> 0 <= line p u).
Proof.
  intros p u V D z. unfold z. clear z.
  assert (H : (value p / deriv p * deriv p)%Qc = value p) by (apply Qc_div_mul; intro; qlra).
  set (d := value p / deriv p) in *. clearbody d.
  assert (Dn : 0 < - d) by (apply (mul_pos_inv (deriv p)); auto; qlra).
  assert (L : line p u = deriv p * (u - (time p - d))) by (unfold line; rewrite <- H at 1; ring).
  rewrite L. clear L. split; [qlra|]. split; intros U.
  - pose proof (mul_pos (deriv p) (- (u - (time p - d))) D ltac:(qlra)). qlra.
  - destruct (Qcle_lt_or_eq _ _ U) as [U'|U'].
    + pose proof (mul_pos (deriv p) (u - (time p - d)) D ltac:(qlra)). qlra.
    + rewrite <- U'. replace (time p - d - (time p - d)) with 0 by ring. replace (deriv p * 0) with 0 by ring. qlra.
Qed.
Lemma zero_down : forall p u, 0 < value p -> deriv p < 0 ->
  let z := time p - value p / deriv p in
  time p < z /\ (u < z -> 0 < line p u) /\ (z <= u -> line p u <= 0).
Proof.
  intros p u V D z. unfold z. clear z.
  assert (H : (value p / deriv p * deriv p)%Qc = value p) by (apply Qc_div_mul; intro; qlra).
  set (d := value p / deriv p) in *. clearbody d.
  assert (Dn : 0 < - d) by (apply (mul_pos_inv (- deriv p)); [qlra|]; replace (- deriv p * - d) with (d * deriv p) by ring; qlra).
  assert (L : line p u = deriv p * (u - (time p - d))) by (unfold line; rewrite <- H at 1; ring).
  rewrite L. clear L. split; [qlra|]. split; intros U.
  - pose proof (mul_pos (- deriv p) (- (u - (time p - d))) ltac:(qlra) ltac:(qlra)). qlra.
  - destruct (Qcle_lt_or_eq _ _ U) as [U'|U'].
    + pose proof (mul_pos (- deriv p) (u - (time p - d)) ltac:(qlra) ltac:(qlra)). qlra.
    + rewrite <- U'. replace (time p - d - (time p - d)) with 0 by ring. replace (deriv p * 0) with 0 by ring. qlra.
Qed.

(** The samples made from one piece that ends at [n]. *)
Definition bool_piece (p : smp) (n : Qc) : res (list smp) :=
  (if nltb n0 (value p) then
     if nltb (deriv p) n0 then
       q <- of_div (ndiv (value p) (deriv p)) ;;
       let tz := nsub (time p) q in
       Ok (mkS (time p) n1 n0 :: (if nltb tz n then [mkS tz n0 n0] else []))
     else Ok [mkS (time p) n1 n0]
   else
     if nltb (value p) n0 && nltb n0 (deriv p) then
       q <- of_div (ndiv (value p) (deriv p)) ;;
       let tz := nsub (time p) q in
       Ok (mkS (time p) n0 n0 :: (if nltb tz n then [mkS tz n1 n0] else []))
     else Ok [mkS (time p) n0 n0]).
Lemma boolean_loop_eq : forall e p l, boolean_loop e (p :: l) =
  (out <- bool_piece p (match l with [] => e | c :: _ => time c end) ;; rest <- boolean_loop e l ;; Ok (out ++ rest)).
Proof. reflexivity. Qed.

(** One piece: its samples carry its bits up to the next time. *)
Lemma boolean_piece : forall p n, time p < n -> exists z,
  bool_piece p n = Ok z /\
  increasing z /\ Forall (fun q => time q < n) z /\ (exists r z', z = r :: z' /\ time r = time p) /\
  Forall (fun q => deriv q = 0 /\ (value q = 0 \/ value q = 1)) z /\
  forall u, time p <= u -> u < n -> eval z u = Some (bit p u).
Proof.
  intros p n Hn. unfold bool_piece. change n0 with 0. change n1 with 1.
  assert (L1 : forall t v u, line (mkS t v 0) u = v) by (intros; unfold line; cbn [time value deriv]; ring).
  assert (One : forall v, (v = 0 \/ v = 1) -> (forall u, time p <= u -> u < n -> bit p u = v) ->
    exists z, Ok [mkS (time p) v 0] = Ok z /\ increasing z /\ Forall (fun q => time q < n) z /\ (exists r z', z = r :: z' /\ time r = time p) /\
      Forall (fun q => deriv q = 0 /\ (value q = 0 \/ value q = 1)) z /\ forall u, time p <= u -> u < n -> eval z u = Some (bit p u)).
  { intros v V H. eexists. split; [reflexivity|]. split; [cbn; auto|]. split; [constructor; auto|]. split; [eauto|].
    split; [constructor; cbn; auto|]. intros u U1 U2. rewrite eval_cons_all; auto. rewrite L1, H; auto. }
  assert (Two : forall v w tz, (v = 0 \/ v = 1) -> (w = 0 \/ w = 1) -> time p < tz ->
    (forall u, time p <= u -> u < n -> u < tz -> bit p u = v) -> (forall u, tz <= u -> u < n -> bit p u = w) ->
    exists z, Ok (mkS (time p) v 0 :: (if nltb tz n then [mkS tz w 0] else [])) = Ok z /\ increasing z /\ Forall (fun q => time q < n) z /\ (exists r z', z = r :: z' /\ time r = time p) /\
      Forall (fun q => deriv q = 0 /\ (value q = 0 \/ value q = 1)) z /\ forall u, time p <= u -> u < n -> eval z u = Some (bit p u)).
  { intros v w tz V W T H1 H2. qcase.
    - eexists. split; [reflexivity|]. split; [cbn [increasing]; repeat split; auto|]. split; [repeat (constructor; auto)|].
      split; [eauto|]. split; [repeat (constructor; cbn; auto)|]. intros u U1 U2.
      destruct (Qclt_le_dec u tz) as [C|C].
      + rewrite eval_cons_all; auto. rewrite L1, H1; auto.
      + rewrite (eval_cons_some _ _ _ w); [rewrite H2; auto|]. rewrite eval_cons_all; auto. rewrite L1. auto.
    - apply One; auto. intros u U1 U2. apply H1; auto. qlra. }
  qcase; [|destruct (nltb (value p) 0 && nltb 0 (deriv p))%bool eqn:B].
  - qcase.
    + rewrite ndiv_some by (intro; qlra). cbn [of_div bind]. change (nsub ?a ?b) with (a - b).
      pose proof (fun u => zero_down p u Eb Eb0) as K. cbn zeta in K.
      change (ndiv (value p) (deriv p)) with (value p / deriv p) in *.
      apply Two; auto.
      * apply (K 0).
      * intros u U1 U2 U3. destruct (K u) as (_ & K1 & _). unfold bit. destruct (Qclt_le_dec 0 (value p)); [|exfalso; qlra].
        specialize (K1 U3). destruct (Qclt_le_dec 0 (line p u)); [auto|exfalso; qlra].
      * intros u U1 U2. destruct (K u) as (_ & _ & K1). unfold bit. destruct (Qclt_le_dec 0 (value p)); [|exfalso; qlra].
        specialize (K1 U1). destruct (Qclt_le_dec 0 (line p u)); [exfalso; qlra|auto].
    + apply One; auto. intros u U1 U2. unfold bit. destruct (Qclt_le_dec 0 (value p)); [|exfalso; qlra].
      assert (0 < line p u) by (unfold line; qnra). destruct (Qclt_le_dec 0 (line p u)); [auto|exfalso; qlra].
  - apply andb_prop in B. destruct B as [B1 B2]. qb.
    rewrite ndiv_some by (intro; qlra). cbn [of_div bind]. change (nsub ?a ?b) with (a - b).
    pose proof (fun u => zero_up p u B1 B2) as K. cbn zeta in K.
    change (ndiv (value p) (deriv p)) with (value p / deriv p) in *.
    apply Two; auto.
    + apply (K 0).
    + intros u U1 U2 U3. destruct (K u) as (_ & K1 & _). unfold bit. destruct (Qclt_le_dec 0 (value p)); [exfalso; qlra|].
      destruct (Qclt_le_dec (value p) 0); [|exfalso; qlra].
      specialize (K1 U3). destruct (Qclt_le_dec (line p u) 0); [auto|exfalso; qlra].
    + intros u U1 U2. destruct (K u) as (_ & _ & K1). unfold bit. destruct (Qclt_le_dec 0 (value p)); [exfalso; qlra|].
      destruct (Qclt_le_dec (value p) 0); [|exfalso; qlra].
      specialize (K1 U1). destruct (Qclt_le_dec (line p u) 0); [exfalso; qlra|auto].
  - apply One; auto. intros u U1 U2. unfold bit. destruct (Qclt_le_dec 0 (value p)); [exfalso; qlra|].
    destruct (Qclt_le_dec (value p) 0) as [C|C]; [|auto].
    assert (D : deriv p <= 0).
    { apply andb_false_iff in B. destruct B; qb; [exfalso|]; qlra. }
    assert (line p u < 0) by (unfold line; qnra). destruct (Qclt_le_dec (line p u) 0); [auto|exfalso; qlra].
Qed.

Lemma increasing_app2 : forall l1 l2, increasing l1 -> increasing l2 ->
  (forall p q, In p l1 -> In q l2 -> time p < time q) -> increasing (l1 ++ l2).
Proof.
  induction l1 as [|p l1 IH]; intros l2 H1 H2 H; cbn [app increasing] in *; [auto|]. destruct H1 as [H1 H3]. split.
  - apply Forall_app. split; [auto|]. rewrite Forall_forall. intros q J. apply H; cbn; auto.
  - apply IH; auto. intros a c Ja Jc. apply H; cbn; auto.
Qed.

(** A piece of no length. *)
Lemma bool_piece_end : forall c, exists v, (v = 0 \/ v = 1) /\ bool_piece c (time c) = Ok [mkS (time c) v 0].
Proof.
  intros c. unfold bool_piece. change n0 with 0. change n1 with 1. qcase; [|destruct (nltb (value c) 0 && nltb 0 (deriv c))%bool eqn:B].
  - exists 1. split; [auto|]. qcase; [|reflexivity]. rewrite ndiv_some by (intro; qlra). cbn [of_div bind].
    pose proof (zero_down c 0 Eb Eb0) as (K & _). cbv zeta. change (nsub (time c) (value c / deriv c)) with (time c - value c / deriv c).
    qcase; [exfalso; qlra|reflexivity].
  - apply andb_prop in B. destruct B as [B1 B2]. qb. exists 0. split; [auto|].
    rewrite ndiv_some by (intro; qlra). cbn [of_div bind].
    pose proof (zero_up c 0 B1 B2) as (K & _). cbv zeta. change (nsub (time c) (value c / deriv c)) with (time c - value c / deriv c).
    qcase; [exfalso; qlra|reflexivity].
  - exists 0. split; [auto|reflexivity].
Qed.

Lemma boolean_loop_ok : forall e l p, increasing (p :: l) -> Forall (fun q => time q <= e) (p :: l) ->
  (time p < e \/ l <> []) ->
  exists z, boolean_loop e (p :: l) = Ok z /\ (exists r z', z = r :: z' /\ time r = time p) /\
    Forall (fun q => deriv q = 0 /\ (value q = 0 \/ value q = 1)) z /\ increasing z /\ Forall (fun q => time q <= e) z /\
    forall u r, u < e -> active (p :: l) u r -> eval z u = Some (bit r u).
Proof.
  intros e. induction l as [|c l IH]; intros p O F N.
  - destruct N as [N|N]; [|congruence]. rewrite boolean_loop_eq.
    destruct (boolean_piece p e N) as (z & -> & A1 & A2 & A3 & A4 & A5). cbn [bind boolean_loop]. rewrite app_nil_r. exists z.
    split; [auto|]. split; [auto|]. split; [auto|]. split; [auto|]. split; [eapply Forall_impl; [|exact A2]; cbn; intros; qlra|].
    intros u r U (l1 & l2 & E & T1 & T2). destruct l1 as [|? [|]]; inversion E; subst. auto.
  - rewrite boolean_loop_eq.
    destruct O as [O1 O2]. pose proof (Forall_inv O1) as Hc. cbn beta in Hc. inversion F as [|? ? F1 F2]; subst.
    destruct (boolean_piece p (time c) Hc) as (z & -> & A1 & A2 & (r0 & z0 & A3 & A3') & A4 & A5). cbn [bind].
    destruct (Qclt_le_dec (time c) e) as [Lc|Lc]; [|destruct l as [|c' l]].
    2:{ (* the last sample is at the end *)
      assert (Tc : time c = e) by (inversion F2; subst; qlra).
      assert (G : exists v, (v = 0 \/ v = 1) /\ boolean_loop e [c] = Ok [mkS (time c) v 0]).
      { destruct (bool_piece_end c) as (v & V & E). exists v. split; [auto|]. rewrite boolean_loop_eq, <- Tc, E. reflexivity. }
      destruct G as (v & V & ->). cbn [bind]. exists (z ++ [mkS (time c) v 0]). split; [reflexivity|].
      split; [rewrite A3; cbn [app]; eauto|]. split; [apply Forall_app; split; [auto|constructor; cbn; auto]|].
      split. { apply increasing_app2; cbn; auto. intros a d Ja [<-|[]]. rewrite Forall_forall in A2. cbn. auto. }
      split. { apply Forall_app. split; [eapply Forall_impl; [|exact A2]; cbn; intros; qlra|constructor; auto; cbn; qlra]. }
      intros u r U (l1 & l2 & E & T1 & T2). rewrite eval_app.
      replace (eval [mkS (time c) v 0] u) with (@None Qc) by (symmetry; apply eval_none; constructor; auto; cbn; qlra).
      destruct l1 as [|? [|? [|]]]; inversion E; subst; [apply A5; auto; qlra|exfalso; qlra]. }
    2:{ exfalso. destruct O2 as [O2 _]. apply Forall_inv in O2. inversion F2 as [|? ? F3 F4]; subst. apply Forall_inv in F4. qlra. }
    destruct (IH c O2 F2 (or_introl Lc)) as (y & -> & (r1 & y0 & B1 & B1') & B2 & B3 & B4 & B5). cbn [bind].
    exists (z ++ y). split; [reflexivity|]. split; [rewrite A3; cbn [app]; eauto|].
    split; [apply Forall_app; auto|]. 
    assert (Yt : Forall (fun q => time c <= time q) y).
    { rewrite B1 in B3 |- *. destruct B3 as [B3 _]. constructor; [qlra|]. eapply Forall_impl; [|exact B3]. cbn. intros; qlra. }
    split. { apply increasing_app2; auto. intros a d Ja Jd. rewrite Forall_forall in A2, Yt. specialize (A2 _ Ja). specialize (Yt _ Jd). qlra. }
    split. { apply Forall_app. split; [|auto]. eapply Forall_impl; [|exact A2]; cbn; intros; qlra. }
    intros u r U (l1 & l2 & E & T1 & T2). rewrite eval_app. destruct l1 as [|p' l1]; inversion E; subst.
    + apply Forall_inv in T2. replace (eval (r1 :: y0) u) with (@None Qc).
      2:{ symmetry. apply eval_none. eapply Forall_impl; [|exact Yt]. cbn. intros; qlra. }
      apply A5; auto.
    + rewrite (B5 u r); auto. exists l1, l2. auto.
Qed.

(** ** Simplification leaves no sample that continues the previous line *)
Fixpoint fresh (l : list smp) : Prop :=
  match l with
  | p :: ((c :: _) as l') => (line p (time c) <> value c \/ deriv p <> deriv c) /\ fresh l'
  | _ => True
  end.
Lemma fresh_snoc : forall d bk f, fresh (d ++ [bk]) -> line bk (time f) <> value f \/ deriv bk <> deriv f -> fresh (d ++ [bk] ++ [f]).
Proof.
  induction d as [|a d IH]; intros bk f H K; cbn [app] in *; [cbn; auto|].
  destruct d as [|a' d]; cbn [app fresh] in *; [tauto|]. destruct H. split; [auto|]. apply (IH bk f); auto.
Qed.
Lemma fresh_app : forall l1 l2, fresh (l1 ++ l2) -> fresh l1.
Proof.
  induction l1 as [|a l1 IH]; intros l2 H; [exact I|]. destruct l1 as [|c l1]; [exact I|].
  cbn [app fresh] in *. destruct H as [H1 H2]. split; [auto|]. exact (IH l2 H2).
Qed.
Lemma increasing_remove : forall l1 p l2, increasing (l1 ++ p :: l2) -> increasing (l1 ++ l2).
Proof.
  induction l1 as [|a l1 IH]; intros p l2 H; cbn [app increasing] in *; [tauto|]. destruct H as [H1 H2]. split; [|eauto].
  rewrite Forall_app in *. destruct H1 as [H1 H3]. inversion H3; subst. auto.
Qed.

Lemma simplify_loop_fresh : forall rest n b f0 d q,
  time f0 = b -> Forall (fun q => b < time q) rest -> fresh (f0 :: d) -> increasing (f0 :: d ++ rest) ->
  simplify_loop n b (rest ++ f0 :: d) = Ok q -> fresh q /\ increasing q.
Proof.
  induction rest as [|f rest IH]; intros n b f0 d q Hf0 Hr Hd O H.
  - cbn [app] in H. rewrite app_nil_r in O. assert (E : neqb (time f0) b = true) by (apply neqb_true; auto).
    destruct n; cbn [simplify_loop] in H; rewrite E in H; inversion H; subst; auto.
  - inversion Hr as [|? ? Hf Hr']; subst.
    assert (E : neqb (time f) (time f0) = false) by (apply neqb_false; intro; qlra).
    destruct n as [|n]; cbn [app simplify_loop] in H; rewrite E in H; [discriminate|].
    change (f :: rest ++ f0 :: d) with ((f :: rest) ++ f0 :: d) in H. rewrite back_app2 in H by discriminate.
    destruct (back_cons _ f0 d) as (d0 & bk & Ed). rewrite Ed, back_app in H. cbn [bind] in H. rewrite <- Ed in H. vline.
    assert (Keep : line bk (time f) <> value f \/ deriv bk <> deriv f -> simplify_loop n (time f0) ((rest ++ f0 :: d) ++ [f]) = Ok q -> fresh q /\ increasing q).
    { intros K H'. rewrite <- app_assoc in H'. cbn [app] in H'. apply (IH n (time f0) f0 (d ++ [f]) q); auto.
      - change (f0 :: d ++ [f]) with ((f0 :: d) ++ [f]). rewrite Ed, <- app_assoc. apply fresh_snoc; [rewrite <- Ed; auto|auto].
      - rewrite <- app_assoc. exact O. }
    destruct (neqb (line bk (time f)) (value f)) eqn:E1; cbn [negb orb] in H; [destruct (neqb (deriv bk) (deriv f)) eqn:E2; cbn [negb] in H|]; qb.
    + apply (IH n (time f0) f0 d q); auto. apply (increasing_remove (f0 :: d) f rest). exact O.
    + apply Keep; auto.
    + apply Keep; auto.
Qed.

(** ** compute_boolean *)
Lemma boolean_ok : forall y p l, samples y = p :: l -> time p = beginTime y -> beginTime y < endTime y ->
  increasing (samples y) -> Forall (fun q => time q <= endTime y) (samples y) ->
  exists r z, compute_boolean y = Ok (mkSig (r :: z) (beginTime y) (endTime y)) /\
    time r = beginTime y /\ increasing (r :: z) /\ fresh (r :: z) /\ Forall (fun q => time q < endTime y) (r :: z) /\
    Forall (fun q => deriv q = 0 /\ (value q = 0 \/ value q = 1)) (r :: z) /\
    forall u a, u < endTime y -> active (samples y) u a -> eval (r :: z) u = Some (bit a u).
Proof.
  intros y p l E T Lt O F. set (b := beginTime y) in *. set (e := endTime y) in *.
  rewrite E in *. destruct (boolean_loop_ok e l p O F) as (z0 & E0 & (r & z1 & -> & Tr) & D & Oz & Fz & Ev).
  { left. qlra. }
  unfold compute_boolean. fold b e. rewrite E, E0. cbn [bind].
  rewrite T in Tr.
  assert (Fb : Forall (fun q => b < time q) z1) by (destruct Oz as [Oz _]; rewrite Tr in Oz; auto).
  destruct (simplify_ok r z1 b e Tr (increasing_ordered _ Oz) Fb) as (l' & S1 & S2 & S3 & S4 & S5 & _ & _ & _ & S6).
  inversion Fz as [|? ? Fz1 Fz2]; subst. specialize (S5 Fz2). specialize (S6 (Qclt_le_weak _ _ Lt) Fz2).
  rewrite S1. cbn [bind samples endTime].
  destruct (back_cons _ r l') as (d & bk & Ed).
  assert (Tb : time bk = e).
  { destruct S6 as (q & J & Tq). rewrite Ed in J, S2. apply in_app_or in J. destruct J as [J|[->|[]]]; [|auto].
    apply ordered_app in S2. destruct S2 as (_ & _ & S2). specialize (S2 q bk J (or_introl eq_refl)).
    assert (J' : In bk (r :: l')) by (rewrite Ed; apply in_or_app; cbn; auto). destruct J' as [<-|J']; [qlra|].
    rewrite Forall_forall in S5. specialize (S5 _ J'). qlra. }
  rewrite Ed, rev_app_distr. cbn [rev app]. replace (neqb (time bk) e) with true by (symmetry; apply neqb_true; auto).
  rewrite rev_involutive.
  (* the raw result of the rotation *)
  assert (G : fresh d /\ increasing d /\ Forall (fun q => deriv q = 0 /\ (value q = 0 \/ value q = 1)) d /\ Forall (fun q => time q < e) d).
  { unfold simplify in S1. cbn [samples beginTime endTime] in S1.
    destruct (simplify_loop (2 * length (r :: z1)) b (z1 ++ [r])) as [q| | | |] eqn:EL; cbn [bind] in S1; try discriminate.
    destruct (simplify_loop_fresh z1 (2 * length (r :: z1)) b r [] q Tr Fb I Oz EL) as [G1 G2].
    destruct (simplify_loop_ok z1 (2 * length (r :: z1)) b r []) as (d' & R1 & R2 & R3 & R4 & _); auto.
    { simpl; lia. }
    { apply increasing_ordered. auto. }
    assert (q = r :: d') by congruence. subst q.
    assert (G3 : Forall (fun q => deriv q = 0 /\ (value q = 0 \/ value q = 1)) (r :: d')).
    { inversion D; subst. constructor; auto. rewrite Forall_forall in *. auto. }
    assert (G4 : Forall (fun q => time q <= e) (r :: d')).
    { inversion Fz; subst. constructor; auto. rewrite Forall_forall in *. auto. }
    destruct (back_cons _ r d') as (d2 & bk2 & Ed2). rewrite Ed2, back_app in S1. cbn [bind] in S1. vline.
    destruct (nltb (time bk2) e) eqn:B; qb.
    - assert (K : d ++ [bk] = d2 ++ [bk2] ++ [mkS e (line bk2 e) n0]) by (rewrite <- Ed, app_assoc; congruence).
      rewrite app_assoc in K. apply app_inj_tail in K. destruct K as [K _]. rewrite <- Ed2 in K. subst d.
      split; [auto|]. split; [auto|]. split; [auto|]. rewrite Ed2 in G2 |- *. apply Forall_app. split; [|constructor; auto].
      clear - G2 B. induction d2 as [|a d2 IH]; [constructor|]. cbn [app increasing] in G2. destruct G2 as [G2 G3].
      constructor; [|auto]. rewrite Forall_app in G2. destruct G2 as [_ G2]. apply Forall_inv in G2. qlra.
    - assert (K : d ++ [bk] = d2 ++ [bk2]) by (rewrite <- Ed; congruence). apply app_inj_tail in K. destruct K as [-> ->].
      rewrite Ed2 in *. split; [eapply fresh_app; eauto|].
      assert (G5 : increasing d2 /\ Forall (fun q => time q < time bk2) d2).
      { clear - G2. induction d2 as [|a d2 IH]; [cbn; auto|]. cbn [app increasing] in *. destruct G2 as [G2 G3]. destruct (IH G3).
        rewrite Forall_app in G2. destruct G2 as [G2 G4]. apply Forall_inv in G4. auto. }
      split; [tauto|]. rewrite Forall_app in G3. split; [tauto|]. rewrite Tb in G5. tauto. }
  destruct G as (G1 & G2 & G3 & G4).
  destruct d as [|r' d].
  { cbn in Ed. inversion Ed; subst. exfalso. qlra. }
  assert (r' = r) by (cbn in Ed; congruence). subst r'. exists r, d. split; [reflexivity|]. split; [auto|]. split; [auto|]. split; [auto|].
  split; [auto|]. split; [auto|].
  intros u a U A. rewrite <- (Ev u a U A), <- (S4 u ltac:(qlra)), Ed. symmetry. apply eval_last_app. qlra.
Qed.

(** ** Right time robustness *)
Lemma right_loop_ub : forall l, l <> [] -> @right_loop Qc NumQc l = UB.
Proof.
  induction l as [|a l IH]; intros N; [congruence|]. cbn [right_loop]. destruct l as [|c l]; [reflexivity|].
  cbn [deref bind]. rewrite IH by discriminate. reflexivity.
Qed.

Lemma right_time_ub : forall y p l, samples y = p :: l -> time p = beginTime y -> beginTime y < endTime y ->
  increasing (samples y) -> Forall (fun q => time q <= endTime y) (samples y) -> compute_right_time_rob y = UB.
Proof.
  intros y p l E T Lt O F. destruct (boolean_ok y p l E T Lt O F) as (r & z & E1 & _).
  unfold compute_right_time_rob. rewrite E1. cbn [bind samples]. rewrite right_loop_ub by discriminate. reflexivity.
Qed.

(** ** Left time robustness *)
(** The sample in force, in a list of increasing times. *)
Lemma active_split : forall l p t, increasing (p :: l) -> time p <= t ->
  exists l1 a l2, p :: l = l1 ++ a :: l2 /\ time a <= t /\ Forall (fun q => t < time q) l2.
Proof.
  induction l as [|c l IH]; intros p t O T.
  - exists [], p, []. auto.
  - destruct O as [O1 O2]. destruct (Qclt_le_dec t (time c)) as [C|C].
    + exists [], p, (c :: l). split; [auto|]. split; [auto|]. constructor; auto. destruct O2 as [O2 _].
      eapply Forall_impl; [|exact O2]. cbn. intros; qlra.
    + destruct (IH c t O2 C) as (l1 & a & l2 & E & A). exists (p :: l1), a, l2. rewrite E. auto.
Qed.

Lemma left_time_ok : forall y p l, samples y = p :: l -> time p = beginTime y -> beginTime y < endTime y ->
  increasing (samples y) -> Forall (fun q => time q <= endTime y) (samples y) ->
  exists zb z, compute_boolean y = Ok zb /\ compute_left_time_rob y = Ok z /\
    beginTime z = beginTime y /\ endTime z = endTime y /\ ordered (samples z) /\
    forall t, beginTime y <= t -> t < endTime y -> exists s v,
      beginTime y <= s /\ s <= t /\ (v = 0 \/ v = 1) /\
      (forall u, s <= u -> u <= t -> denotes (samples zb) u v) /\
      (s = beginTime y \/ exists s' w, beginTime y <= s' /\ s' < s /\ w <> v /\ forall u, s' <= u -> u < s -> denotes (samples zb) u w) /\
      denotes (samples z) t (if Qclt_le_dec 0 v then neps + (t - s) else - (neps + (t - s))).
Proof.
  intros y p l E T Lt O F. destruct (boolean_ok y p l E T Lt O F) as (r & z & E1 & Tr & Oz & Fr & Fe & D & _).
  eexists _, _. split; [exact E1|]. unfold compute_left_time_rob. rewrite E1. cbn [bind samples]. split; [reflexivity|].
  cbn [beginTime endTime samples]. split; [auto|]. split; [auto|].
  set (g := fun i : smp => if nltb n0 (value i) then mkS (time i) neps n1 else mkS (time i) (nopp neps) (nopp n1)).
  assert (Tg : forall i, time (g i) = time i) by (intros i; unfold g; destruct (nltb n0 (value i)); auto).
  split.
  { apply increasing_ordered. clear - Oz Tg. induction (r :: z) as [|a l' IH]; [exact I|]. cbn [map increasing] in *. destruct Oz as [O1 O2].
    split; [|auto]. apply Forall_map. rewrite Tg. eapply Forall_impl; [|exact O1]. cbn. intros q Q. rewrite Tg. auto. }
  intros t T1 T2. destruct (active_split z r t Oz) as (l1 & a & l2 & Es & A1 & A2); [qlra|].
  exists (time a), (value a).
  assert (La : forall q, In q (r :: z) -> forall u, line q u = value q).
  { intros q J u. rewrite Forall_forall in D. destruct (D q J) as [D1 _]. unfold line. rewrite D1. ring. }
  assert (Ja : In a (r :: z)) by (rewrite Es; apply in_or_app; cbn; auto).
  assert (Bt : beginTime y <= time a).
  { destruct Ja as [<-|Ja]; [qlra|]. destruct Oz as [Oz _]. rewrite Forall_forall in Oz. specialize (Oz _ Ja). qlra. }
  split; [auto|]. split; [auto|]. split; [rewrite Forall_forall in D; apply D; auto|].
  split; [|split].
  - intros u U1 U2. exists l1, a, l2. split; [auto|]. split; [auto|]. split; [|rewrite La; auto].
    eapply Forall_impl; [|exact A2]. cbn. intros; qlra.
  - destruct l1 as [|c0 c1 _] using rev_ind.
    + left. cbn in Es. inversion Es; subst. auto.
    + right. rewrite <- app_assoc in Es. cbn [app] in Es. exists (time c0), (value c0).
      assert (Jc : In c0 (r :: z)) by (rewrite Es; apply in_or_app; cbn; auto).
      assert (Lc : time c0 < time a).
      { rewrite Es in Oz. clear - Oz. induction c1 as [|h c1 IH]; cbn [app increasing] in Oz; destruct Oz as [O1 O2]; auto.
        apply Forall_inv in O1. auto. }
      split. { destruct Jc as [<-|Jc]; [qlra|]. destruct Oz as [Oz _]. rewrite Forall_forall in Oz. specialize (Oz _ Jc). qlra. }
      split; [auto|]. split.
      * rewrite Es in Fr. assert (K : fresh (c0 :: a :: l2)).
        { clear - Fr. induction c1 as [|h c1 IH]; [exact Fr|]. apply IH. cbn [app] in Fr. destruct (c1 ++ c0 :: a :: l2) eqn:Ec; [destruct c1; discriminate|]. apply Fr. }
        cbn [fresh] in K. destruct K as [K _]. rewrite La in K by auto.
        rewrite Forall_forall in D. destruct (D c0 Jc) as [D1 _]. destruct (D a Ja) as [D2 _]. rewrite D1, D2 in K. tauto.
      * intros u U1 U2. exists c1, c0, (a :: l2). split; [auto|]. split; [auto|]. split; [|rewrite La; auto].
        constructor; [qlra|]. eapply Forall_impl; [|exact A2]. cbn. intros; qlra.
  - exists (map g l1), (g a), (map g l2). split; [rewrite Es, map_app; reflexivity|]. rewrite Tg. split; [auto|]. split.
    + apply Forall_map. eapply Forall_impl; [|exact A2]. cbn. intros q Q. rewrite Tg. auto.
    + unfold g. change n0 with 0. change n1 with 1. change (nopp ?v) with (- v).
      qcase; destruct (Qclt_le_dec 0 (value a)); try (exfalso; qlra); unfold line; cbn [time value deriv]; ring.
Qed.

(** ** In the vocabulary of Spec.v *)
Lemma denotes_active : forall l t v, denotes l t v <-> exists a, active l t a /\ v = line a t.
Proof.
  intros l t v. split.
  - intros (l1 & p & l2 & E & T & F & V). exists p. split; [exists l1, l2; auto|auto].
  - intros (a & (l1 & l2 & E & T & F) & V). exists l1, a, l2. auto.
Qed.
Lemma active_in : forall l t a, active l t a -> In a l.
Proof. intros l t a (l1 & l2 & -> & _). apply in_or_app. cbn. auto. Qed.

Lemma bit_sign : forall a u, ~ (value a = 0 /\ 0 < deriv a) -> time a <= u ->
  (bit a u = 1 -> 0 <= line a u) /\ (bit a u = 0 -> line a u <= 0) /\ (0 < line a u -> bit a u = 1) /\ (line a u < 0 -> bit a u = 0).
Proof.
  intros a u N T. unfold bit.
  destruct (Qclt_le_dec 0 (value a)) as [L|L]; [destruct (Qclt_le_dec 0 (line a u)) as [K|K]|
    destruct (Qclt_le_dec (value a) 0) as [L'|L']; [destruct (Qclt_le_dec (line a u) 0) as [K|K]|]];
    repeat split; intros; try qlra; try discriminate;
    (assert (V : value a = 0) by qlra; assert (D : deriv a <= 0) by (destruct (Qclt_le_dec 0 (deriv a)); [exfalso; apply N; auto|auto]);
     assert (line a u <= 0) by (unfold line; rewrite V; clear - D T; qnra); try qlra; exfalso; qlra).
Qed.

(** Data on which the sign is reported: a sample at the beginning, increasing times,
    positive length, and no piece that rises from zero. *)
Definition sampled (y : signal Qc) : Prop :=
  (exists p l, samples y = p :: l /\ time p = beginTime y) /\ beginTime y < endTime y /\
  increasing (samples y) /\ Forall (fun q => time q <= endTime y) (samples y).
Definition no_zero_rise (y : signal Qc) : Prop := forall p, In p (samples y) -> ~ (value p = 0 /\ 0 < deriv p).

Lemma boolean_exact : forall y, sampled y -> exists z, compute_boolean y = Ok z /\
  beginTime z = beginTime y /\ endTime z = endTime y /\ increasing (samples z) /\
  forall t l1 p l2, t < endTime y -> samples y = l1 ++ p :: l2 -> time p <= t -> Forall (fun q => t < time q) l2 ->
    exists v, (v = 0 \/ v = 1) /\ denotes (samples z) t v /\
      (v = 1 <-> (0 < line p t /\ value p <> 0) \/ (line p t = 0 /\ value p < 0)).
Proof.
  intros y ((p0 & l0 & E & T) & Lt & O & F). destruct (boolean_ok y p0 l0 E T Lt O F) as (r & z & E1 & Tr & Oz & Fr & Fe & D & Ev).
  eexists. split; [exact E1|]. cbn [beginTime endTime samples]. split; [auto|]. split; [auto|]. split; [auto|].
  intros t l1 p l2 Te Es Tp Fl. exists (bit p t). split; [|split].
  - unfold bit. destruct (Qclt_le_dec 0 (value p)); [|destruct (Qclt_le_dec (value p) 0)]; auto.
    + destruct (Qclt_le_dec 0 (line p t)); auto.
    + destruct (Qclt_le_dec (line p t) 0); auto.
  - apply eval_denotes. apply Ev; auto. exists l1, l2. auto.
  - unfold bit. destruct (Qclt_le_dec 0 (value p)) as [L|L]; [|destruct (Qclt_le_dec (value p) 0) as [L'|L']].
    + destruct (Qclt_le_dec 0 (line p t)); split; intros H; try discriminate; auto.
      * left. split; [auto|]. intro; qlra.
      * destruct H as [[H _]|[_ H]]; exfalso; qlra.
    + destruct (Qclt_le_dec (line p t) 0); split; intros H; try discriminate; auto.
      * destruct H as [[H _]|[H _]]; exfalso; qlra.
      * destruct (Qcle_lt_or_eq _ _ q); [left|right]; split; auto. intro; qlra.
    + split; intros H; [discriminate|]. assert (value p = 0) by qlra. destruct H as [[_ H]|[_ H]]; [congruence|exfalso; qlra].
Qed.

Lemma boolean_claim : forall y, sampled y -> no_zero_rise y -> exists z, compute_boolean y = Ok z /\
  beginTime z = beginTime y /\ endTime z = endTime y /\ increasing (samples z) /\
  forall t v, t < endTime y -> denotes (samples y) t v ->
    (0 < v -> denotes (samples z) t 1) /\ (v < 0 -> denotes (samples z) t 0) /\
    (v = 0 -> denotes (samples z) t 0 \/ denotes (samples z) t 1).
Proof.
  intros y ((p0 & l0 & E & T) & Lt & O & F) N. destruct (boolean_ok y p0 l0 E T Lt O F) as (r & z & E1 & Tr & Oz & Fr & Fe & D & Ev).
  eexists. split; [exact E1|]. cbn [beginTime endTime samples]. split; [auto|]. split; [auto|]. split; [auto|].
  intros t v Te Dv. apply denotes_active in Dv. destruct Dv as (a & A & ->). pose proof (Ev t a Te A) as V.
  destruct (bit_sign a t (N a (active_in _ _ _ A))) as (_ & _ & B1 & B2); [destruct A as (? & ? & _ & A & _); auto|].
  split; [|split]; intros H.
  - apply eval_denotes. rewrite V, B1; auto.
  - apply eval_denotes. rewrite V, B2; auto.
  - assert (K : bit a t = 0 \/ bit a t = 1).
    { unfold bit. destruct (Qclt_le_dec 0 (value a)); [|destruct (Qclt_le_dec (value a) 0)]; auto.
      + destruct (Qclt_le_dec 0 (line a t)); auto.
      + destruct (Qclt_le_dec (line a t) 0); auto. }
    destruct K as [K|K]; rewrite K in V; [left|right]; apply eval_denotes; auto.
Qed.

Lemma left_time_claim : forall y, sampled y -> no_zero_rise y -> exists z, compute_left_time_rob y = Ok z /\
  beginTime z = beginTime y /\ endTime z = endTime y /\ ordered (samples z) /\
  forall t v, beginTime y <= t -> t < endTime y -> denotes (samples y) t v ->
    (0 < v -> exists s, beginTime y <= s /\ s <= t /\ denotes (samples z) t (neps + (t - s)) /\
       (forall u w, s <= u -> u <= t -> denotes (samples y) u w -> 0 <= w) /\
       (s = beginTime y \/ exists s', beginTime y <= s' /\ s' < s /\ forall u w, s' <= u -> u < s -> denotes (samples y) u w -> w <= 0)) /\
    (v < 0 -> exists s, beginTime y <= s /\ s <= t /\ denotes (samples z) t (- (neps + (t - s))) /\
       (forall u w, s <= u -> u <= t -> denotes (samples y) u w -> w <= 0) /\
       (s = beginTime y \/ exists s', beginTime y <= s' /\ s' < s /\ forall u w, s' <= u -> u < s -> denotes (samples y) u w -> 0 <= w)).
Proof.
  intros y S N. pose proof S as ((p0 & l0 & E & T) & Lt & O & F).
  destruct (left_time_ok y p0 l0 E T Lt O F) as (zb & z & E1 & E2 & B1 & B2 & Oz & H).
  destruct (boolean_ok y p0 l0 E T Lt O F) as (r & zb' & E1' & _ & _ & _ & _ & _ & Ev). rewrite E1 in E1'. inversion E1'; subst zb. clear E1'.
  cbn [samples] in H.
  exists z. split; [auto|]. split; [auto|]. split; [auto|]. split; [auto|].
  assert (Sg : forall u w, u < endTime y -> denotes (samples y) u w ->
    (denotes (r :: zb') u 1 -> 0 <= w) /\ (denotes (r :: zb') u 0 -> w <= 0) /\ (0 < w -> denotes (r :: zb') u 1) /\ (w < 0 -> denotes (r :: zb') u 0)).
  { intros u w Ue D. apply denotes_active in D. destruct D as (a & A & ->). pose proof (Ev u a Ue A) as V.
    destruct (bit_sign a u (N a (active_in _ _ _ A))) as (C1 & C2 & C3 & C4); [destruct A as (? & ? & _ & A & _); auto|].
    split; [|split; [|split]]; intros K.
    - apply eval_denotes in K. apply C1. congruence.
    - apply eval_denotes in K. apply C2. congruence.
    - apply eval_denotes. rewrite V, C3; auto.
    - apply eval_denotes. rewrite V, C4; auto. }
  assert (Un : forall u v w, denotes (r :: zb') u v -> denotes (r :: zb') u w -> v = w).
  { intros u v w V W. apply eval_denotes in V. apply eval_denotes in W. congruence. }
  intros t v T1 T2 Dv. destruct (H t T1 T2) as (s & x & S1 & S2 & X & S3 & S4 & S5). destruct (Sg t v T2 Dv) as (_ & _ & G1 & G2).
  split; intros V; exists s; (split; [auto|]; split; [auto|]).
  - assert (x = 1) by (apply (Un t); [apply S3; [auto|apply Qcle_refl]|auto]). subst x. destruct (Qclt_le_dec 0 1) as [_|K]; [|exfalso; qlra].
    split; [exact S5|]. split.
    + intros u w U1 U2 D. assert (U3 : u < endTime y) by qlra. apply (Sg u w U3 D). apply S3; auto.
    + destruct S4 as [S4|(s' & w & A1 & A2 & A3 & A4)]; [auto|]. right. exists s'. split; [auto|]. split; [auto|].
      intros u w' U1 U2 D. specialize (A4 u U1 U2). destruct (Sg u w') as (_ & G3 & G4 & _); [qlra|auto|].
      destruct (Qclt_le_dec 0 w') as [C|C]; [|auto]. exfalso. apply A3. apply (Un u); auto.
  - assert (x = 0) by (apply (Un t); [apply S3; [auto|apply Qcle_refl]|auto]). subst x. destruct (Qclt_le_dec 0 0) as [K|_]; [exfalso; qlra|].
    split; [exact S5|]. split.
    + intros u w U1 U2 D. assert (U3 : u < endTime y) by qlra. apply (Sg u w U3 D). apply S3; auto.
    + destruct S4 as [S4|(s' & w & A1 & A2 & A3 & A4)]; [auto|]. right. exists s'. split; [auto|]. split; [auto|].
      intros u w' U1 U2 D. specialize (A4 u U1 U2). destruct (Sg u w') as (G3 & _ & _ & G4); [qlra|auto|].
      destruct (Qclt_le_dec w' 0) as [C|C]; [|auto]. exfalso. apply A3. apply (Un u); auto.
Qed.

Lemma right_time_claim : forall y, sampled y -> compute_right_time_rob y = UB.
Proof. intros y ((p & l & E & T) & Lt & O & F). eapply right_time_ub; eauto. Qed.
