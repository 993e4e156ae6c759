(** Transducer trees for every number type: an evaluation depends only on the
    formula an object stands for, parameters act as constants, horizons are sums. *)
From Coq Require Import List Bool String.
From Verif Require Import Num Base Signal Robust Transducer StlSpec.
Import ListNotations.

Section Tree.
Context {T : Type} {N : Num T}.
Variable E : env T.

(** The value a constant takes in an evaluation. *)
Definition eff (p : option string) (v : T) : T :=
  match p with
  | None => v
  | Some _ => match get_param E p with Some w => w | None => n0 end
  end.

(** Same structure and state, and same effective constants and bounds. *)
Inductive sim : tree T -> tree T -> Prop :=
| sim_sig : forall n k v v' c, sim (TSig n k v c) (TSig n k v' c)
| sim_const : forall n k p v p' v', eff p v = eff p' v' -> sim (TConst n k p v) (TConst n k p' v')
| sim_abs : forall n c c', sim c c' -> sim (TAbs n c) (TAbs n c')
| sim_plus : forall n l r l' r', sim l l' -> sim r r' -> sim (TPlus n l r) (TPlus n l' r')
| sim_minus : forall n l r l' r', sim l l' -> sim r r' -> sim (TMinus n l r) (TMinus n l' r')
| sim_mult : forall n l r l' r', sim l l' -> sim r r' -> sim (TMult n l r) (TMult n l' r')
| sim_atom : forall n l op r l' r', sim l l' -> sim r r' -> sim (TAtom n l op r) (TAtom n l' op r')
| sim_not : forall n c c', sim c c' -> sim (TNot n c) (TNot n c')
| sim_and : forall n l r l' r', sim l l' -> sim r r' -> sim (TAnd n l r) (TAnd n l' r')
| sim_or : forall n l r l' r', sim l l' -> sim r r' -> sim (TOr n l r) (TOr n l' r')
| sim_imp : forall n l r l' r', sim l l' -> sim r r' -> sim (TImp n l r) (TImp n l' r')
| sim_ev : forall n i i' c c', bound_value E (ibegin i) = bound_value E (ibegin i') ->
    bound_value E (iend i) = bound_value E (iend i') -> sim c c' -> sim (TEv n i c) (TEv n i' c')
| sim_alw : forall n i i' c c', bound_value E (ibegin i) = bound_value E (ibegin i') ->
    bound_value E (iend i) = bound_value E (iend i') -> sim c c' -> sim (TAlw n i c) (TAlw n i' c')
| sim_until : forall n i i' l r l' r', bound_value E (ibegin i) = bound_value E (ibegin i') ->
    bound_value E (iend i) = bound_value E (iend i') -> sim l l' -> sim r r' ->
    sim (TUntil n l i r) (TUntil n l' i' r').

Lemma sim_node : forall t t', sim t t' -> node t = node t'.
Proof. intros t t' H. destruct H; reflexivity. Qed.
Lemma sim_tz : forall t t', sim t t' -> tz t = tz t'.
Proof. intros t t' H. unfold tz. rewrite (sim_node _ _ H). reflexivity. Qed.
Lemma sim_tup : forall t t', sim t t' -> tup t = tup t'.
Proof. intros t t' H. unfold tup. rewrite (sim_node _ _ H). reflexivity. Qed.
Lemma sim_tlow : forall t t', sim t t' -> tlow t = tlow t'.
Proof. intros t t' H. unfold tlow. rewrite (sim_node _ _ H). reflexivity. Qed.
Lemma sim_set_node : forall t t' n, sim t t' -> sim (set_node t n) (set_node t' n).
Proof. intros t t' n H. destruct H; cbn [set_node]; constructor; auto. Qed.

Lemma eff_eff : forall p v, eff p (eff p v) = eff p v.
Proof. destruct p; reflexivity. Qed.

Definition same (r r' : res (T * tree T)) : Prop :=
  match r, r' with
  | Ok (v, t), Ok (v', t') => v = v' /\ sim t t'
  | UB, UB | Exn, Exn | NonFinite, NonFinite | OutOfFuel, OutOfFuel => True
  | _, _ => False
  end.

Ltac child IH :=
  match type of IH with
  | same ?r ?r' =>
      let v := fresh "v" in let c := fresh "c" in let v' := fresh "v" in let c' := fresh "c" in
      destruct r as [[v c]| | | |], r' as [[v' c']| | | |];
      cbn [same] in IH; try contradiction; cbn [bind]; try exact I;
      destruct IH as [<- IH];
      rewrite <- ?(sim_tz _ _ IH), <- ?(sim_tup _ _ IH), <- ?(sim_tlow _ _ IH), <- ?(sim_node _ _ IH)
  end.
Ltac binds :=
  repeat match goal with
  | |- same (bind ?r _) (bind ?r _) => destruct r as [?| | | |]; cbn [bind]; try exact I
  | |- same (match ?p with (_, _) => _ end) _ => destruct p
  | |- same (bind (bind ?r _) _) (bind (bind ?r _) _) => destruct r as [?| | | |]; cbn [bind]; try exact I
  | |- same (if ?b then _ else _) (if ?b then _ else _) => destruct b; cbn [bind]
  end.

Lemma compute_constant_eff : forall n k p v, compute_constant E n k p v = compute_constant E n k None (eff p v).
Proof. destruct p; reflexivity. Qed.
Lemma compute_constant_value : forall n k w v n' k' c, compute_constant E n k None w = Ok (v, n', k', c) -> c = w.
Proof.
  intros n k w v n' k' c H. unfold compute_constant in H.
  repeat match type of H with
  | bind ?r _ = Ok _ => destruct r as [?| | | |]; cbn [bind] in H; try discriminate H
  | (match ?p with (_, _) => _ end) = Ok _ => destruct p
  end.
  congruence.
Qed.

Lemma compute_rob_sim : forall t t', sim t t' -> same (compute_rob E t) (compute_rob E t').
Proof.
  intros t t' H. induction H; cbn [compute_rob];
    try child IHsim; try child IHsim1; try child IHsim2;
    rewrite ?H, ?H0; binds; cbn [same]; try (split; [reflexivity|constructor; auto using sim_set_node]).
  (* constants *)
  rewrite (compute_constant_eff n k p v), (compute_constant_eff n k p' v'), H. destruct (compute_constant E n k None (eff p' v')) as [[[[? ?] ?] ?]| | | |] eqn:X; cbn [bind same]; auto.
  split; auto. constructor. apply compute_constant_value in X. subst. rewrite eff_eff, <- H. apply eff_eff.
Qed.

Lemma default_bound_sim : forall up v t t', sim t t' -> same (default_bound E up (v, t)) (default_bound E up (v, t')).
Proof.
  intros up v t t' H. unfold default_bound. cbn [snd]. rewrite <- (sim_node _ _ H).
  binds; cbn [same]; split; auto using sim_set_node.
Qed.

Lemma compute_bound_sim : forall t t', sim t t' -> forall up, same (compute_bound E up t) (compute_bound E up t').
Proof.
  intros t t' H. induction H; intros up; cbn [compute_bound];
  try match goal with
  | |- same (bind (compute_rob E ?a) _) (bind (compute_rob E ?b) _) =>
      let K := fresh "K" in
      assert (K : sim a b) by (constructor; auto); apply compute_rob_sim in K;
      destruct (compute_rob E a) as [[? ?]| | | |], (compute_rob E b) as [[? ?]| | | |];
      cbn [same] in K; try contradiction; cbn [bind]; try exact I; destruct K as [<- K]; apply default_bound_sim; exact K
  end.
  - specialize (IHsim (negb up)). child IHsim. binds; cbn [same]; split; auto; constructor; auto.
  - specialize (IHsim1 up). specialize (IHsim2 up). child IHsim1. child IHsim2. binds; cbn [same]; split; auto; constructor; auto.
  - specialize (IHsim1 up). specialize (IHsim2 up). child IHsim1. child IHsim2. binds; cbn [same]; split; auto; constructor; auto.
  - specialize (IHsim1 (negb up)). specialize (IHsim2 up). child IHsim1. child IHsim2. binds; cbn [same]; split; auto; constructor; auto.
  - specialize (IHsim up). child IHsim. rewrite H, H0. binds; cbn [same]; split; auto; constructor; auto.
  - specialize (IHsim up). child IHsim. rewrite H, H0. binds; cbn [same]; split; auto; constructor; auto.
  - specialize (IHsim1 up). specialize (IHsim2 up). child IHsim1. rewrite H, H0.
    match goal with |- same (if ?b then _ else _) _ => destruct b end.
    + cbn [same]. split; auto. constructor; auto.
    + child IHsim2.
      match goal with |- same (if ?b then _ else _) _ => destruct b end.
      * cbn [same]. split; auto; constructor; auto.
      * binds; cbn [same]; split; auto; constructor; auto.
Qed.

(** The numbers of an evaluation. *)
Definition numbers (r : res (T * T * T * tree T)) : res (T * T * T) :=
  '(a, b, c, _) <- r ;; Ok (a, b, c).

Lemma evaluate_sim : forall t t' s e, sim (prepare E t s e) (prepare E t' s e) ->
  numbers (evaluate E t s e) = numbers (evaluate E t' s e).
Proof.
  intros t t' s e H. unfold evaluate. apply compute_rob_sim in H.
  destruct (compute_rob E (prepare E t s e)) as [[? ?]| | | |], (compute_rob E (prepare E t' s e)) as [[? ?]| | | |];
    cbn [same] in H; try contradiction; cbn [bind numbers]; try reflexivity.
  destruct H as [<- H].
  match type of H with sim ?x ?y => pose proof (compute_bound_sim _ _ H false) as H1;
    destruct (compute_bound E false x) as [[? ?]| | | |], (compute_bound E false y) as [[? ?]| | | |] end;
    cbn [same] in H1; try contradiction; cbn [bind numbers]; try reflexivity.
  destruct H1 as [<- H1].
  match type of H1 with sim ?x ?y => pose proof (compute_bound_sim _ _ H1 true) as H2;
    destruct (compute_bound E true x) as [[? ?]| | | |], (compute_bound E true y) as [[? ?]| | | |] end;
    cbn [same] in H2; try contradiction; cbn [bind numbers]; try reflexivity.
  destruct H2 as [<- H2]. reflexivity.
Qed.

(** ** Two objects for the same formula *)

Lemma prepare_sim_skel : forall t t' s e, skel t = skel t' -> sim (prepare E t s e) (prepare E t' s e).
Proof.
  unfold prepare.
  induction t; intros t' s e; destruct t'; cbn [skel]; intros H; try discriminate H; injection H; intros;
    subst; cbn [set_trace set_params reset set_horizon];
    unfold reset_node, with_horizon; cbn [nz nup nlow start_time end_time];
    try (constructor; auto; fail).
  - constructor. unfold eff. destruct p0; [reflexivity|]. cbn [get_param]. auto.
Qed.

Lemma evaluate_skel : forall t t' s e, skel t = skel t' ->
  numbers (evaluate E t s e) = numbers (evaluate E t' s e).
Proof. intros. apply evaluate_sim, prepare_sim_skel. auto. Qed.

Lemma skel_build : forall f, skel (build (skel f)) = skel f.
Proof. induction f; cbn [skel build]; congruence || (destruct p; reflexivity) || auto. Qed.

End Tree.

(** ** What an object stands for is kept by every step of an evaluation *)
Section Keep.
Context {T : Type} {N : Num T}.

Lemma skel_set_node : forall (t : tree T) n, skel (set_node t n) = skel t.
Proof. destruct t; reflexivity. Qed.

Ltac inv_bind H :=
  match type of H with
  | bind ?r _ = Ok _ => let X := fresh "X" in destruct r as [?| | | |] eqn:X; cbn [bind] in H; try discriminate H
  | (match ?p with (_, _) => _ end) = Ok _ => let X := fresh "X" in destruct p eqn:X
  | (if ?b then _ else _) = Ok _ => destruct b
  end.

Lemma skel_compute_rob : forall E (t : tree T) v t', compute_rob E t = Ok (v, t') -> skel t' = skel t.
Proof.
  intros E. induction t; intros w t' H; cbn [compute_rob] in H; repeat inv_bind H;
    assert (H' := f_equal (fun r => match r with Ok (_, x) => skel x | _ => skel t' end) H); cbn beta iota in H';
    rewrite <- H'; cbn [skel]; rewrite ?skel_set_node; subst;
    try (f_equal; first [reflexivity | eapply IHt; (reflexivity || eassumption) | eapply IHt1; (reflexivity || eassumption) | eapply IHt2; (reflexivity || eassumption)]);
    try reflexivity.
  (* constants *)
  clear - X. destruct p; [reflexivity|]. unfold compute_constant in X. repeat inv_bind X. injection X; intros; subst. reflexivity.
Qed.

Lemma skel_default_bound : forall E up v (t : tree T) w t', default_bound E up (v, t) = Ok (w, t') -> skel t' = skel t.
Proof.
  intros E up v t w t' H. unfold default_bound in H. cbn [snd] in H. repeat inv_bind H;
    injection H; intros; subst; apply skel_set_node.
Qed.

Lemma skel_compute_bound : forall E (t : tree T) up v t', compute_bound E up t = Ok (v, t') -> skel t' = skel t.
Proof.
  intros E.
  induction t; intros up w t' H; cbn [compute_bound] in H;
    try (inv_bind H; match goal with X : compute_rob _ _ = Ok ?q |- _ => destruct q as [? ?]; apply skel_default_bound in H; apply skel_compute_rob in X; cbn [skel] in *; congruence end);
    repeat inv_bind H; injection H; intros; subst; cbn [skel];
    try (f_equal; first [reflexivity | eapply IHt; (reflexivity || eassumption) | eapply IHt1; (reflexivity || eassumption) | eapply IHt2; (reflexivity || eassumption)]);
    try reflexivity.
Qed.

Lemma skel_evaluate : forall E (t : tree T) s e a b c t', evaluate E t s e = Ok (a, b, c, t') -> skel t' = skel (prepare E t s e).
Proof.
  intros E t s e a b c t' H. unfold evaluate in H.
  destruct (compute_rob E (prepare E t s e)) as [[v1 t1]| | | |] eqn:X1; cbn [bind] in H; try discriminate H.
  destruct (compute_bound E false t1) as [[v2 t2]| | | |] eqn:X2; cbn [bind] in H; try discriminate H.
  destruct (compute_bound E true t2) as [[v3 t3]| | | |] eqn:X3; cbn [bind] in H; try discriminate H.
  injection H; intros; subst. apply skel_compute_rob in X1. apply skel_compute_bound in X2, X3. congruence.
Qed.

Lemma skel_set_horizon : forall E (t : tree T) s e, skel (set_horizon E t s e) = skel t.
Proof. induction t; intros; cbn [set_horizon skel]; congruence. Qed.
Lemma skel_reset : forall (t : tree T), skel (reset t) = skel t.
Proof. induction t; cbn [reset skel]; congruence. Qed.
Lemma skel_set_params : forall E (t : tree T), skel (set_params E t) = skel t.
Proof. induction t; cbn [set_params skel]; try congruence. destruct p; reflexivity. Qed.
Lemma skel_set_trace : forall (t : tree T), skel (set_trace t) = skel t.
Proof. induction t; cbn [set_trace skel]; congruence. Qed.
Lemma skel_prepare : forall E (t : tree T) s e, skel (prepare E t s e) = skel t.
Proof. intros. unfold prepare. rewrite skel_set_horizon, skel_reset, skel_set_params, skel_set_trace. reflexivity. Qed.
Lemma skel_clone : forall (t : tree T), skel (clone t) = skel t.
Proof. induction t; cbn [clone skel]; congruence. Qed.
Lemma skel_set_param : forall k w (t : tree T), k <> EmptyString -> skel (tree_set_param k w t) = skel t.
Proof.
  intros k w t Hk. induction t; cbn [tree_set_param skel]; try congruence.
  destruct p; [reflexivity|]. destruct (String.eqb_spec k EmptyString); congruence.
Qed.

End Keep.

(** ** Parameters *)
Section Params.
Context {T : Type} {N : Num T}.

Lemma subst_bound_value : forall (E : env T) b,
  bound_value E (subst_bound (fun k => lookup k (e_params E)) b) = bound_value E b.
Proof.
  intros E b. unfold subst_bound, bound_value, get_param. destruct b as [n [k|]]; cbn [bstr bnum]; [|reflexivity].
  destruct (lookup k (e_params E)) eqn:X; cbn [bstr bnum]; [reflexivity|]. rewrite X. reflexivity.
Qed.

Lemma subst_sim : forall (E : env T) f s e,
  sim E (prepare E (build f) s e) (prepare E (build (subst (fun k => lookup k (e_params E)) f)) s e).
Proof.
  intros E f. unfold prepare.
  induction f; intros s e; cbn [subst build set_trace set_params reset set_horizon];
    try (cbn [subst_interval ibegin iend]; rewrite ?subst_bound_value; constructor; cbn [subst_interval ibegin iend]; rewrite ?subst_bound_value; auto; fail).
  destruct p as [k|]; cbn [build set_trace set_params reset set_horizon].
  - destruct (lookup k (e_params E)) eqn:X; cbn [build set_trace set_params reset set_horizon]; constructor; unfold eff, get_param; rewrite ?X; reflexivity.
  - constructor. reflexivity.
Qed.

(** The values of all declared parameters put in place of their names. *)
Lemma params_are_constants : forall (E : env T) f t s e, skel t = skel (build f) ->
  numbers (evaluate E t s e) =
  numbers (evaluate E (build (subst (fun k => lookup k (e_params E)) f)) s e).
Proof.
  intros E f t s e H. rewrite (evaluate_skel E t (build f) s e) by auto. apply evaluate_sim, subst_sim.
Qed.

(** Without parameters left, the parameter map is not read. *)
Fixpoint closed (f : fml T) : Prop :=
  match f with
  | FSig _ _ => True
  | FConst p _ => p = None
  | FAbs c | FNot c => closed c
  | FPlus l r | FMinus l r | FMult l r | FAtom l _ r | FAnd l r | FOr l r | FImp l r => closed l /\ closed r
  | FEv i c | FAlw i c => bstr (ibegin i) = None /\ bstr (iend i) = None /\ closed c
  | FUntil l i r => bstr (ibegin i) = None /\ bstr (iend i) = None /\ closed l /\ closed r
  end.

End Params.

(** ** Horizons *)
Section Hor.
Context {T : Type} {N : Num T}.

Definition under (d : bool) (x : list bool * (T * T)) : list bool * (T * T) := (d :: fst x, snd x).

(** The horizons stored in an object, for every occurrence. *)
Fixpoint horizons (t : tree T) : list (list bool * (T * T)) :=
  ([], (start_time (node t), end_time (node t))) ::
  match t with
  | TSig _ _ _ _ | TConst _ _ _ _ => []
  | TAbs _ c | TNot _ c | TEv _ _ c | TAlw _ _ c => map (under false) (horizons c)
  | TPlus _ l r | TMinus _ l r | TMult _ l r | TAtom _ l _ r | TAnd _ l r | TOr _ l r | TImp _ l r
  | TUntil _ l _ r => map (under false) (horizons l) ++ map (under true) (horizons r)
  end.

Ltac inv_bind H :=
  match type of H with
  | bind ?r _ = Ok _ => let X := fresh "X" in destruct r as [?| | | |] eqn:X; cbn [bind] in H; try discriminate H
  | (match ?p with (_, _) => _ end) = Ok _ => let X := fresh "X" in destruct p eqn:X
  | (if ?b then _ else _) = Ok _ => destruct b
  end.

Lemma horizons_set_z : forall (t : tree T) z, horizons (set_node t (with_z (node t) z)) = horizons t.
Proof. destruct t; reflexivity. Qed.

Lemma compute_signal_hor : forall E n k c v n' (k' : option nat), compute_signal E n k c = Ok (v, n', k') ->
  start_time n' = start_time n /\ end_time n' = end_time n.
Proof.
  intros E n k c v n' k' H. unfold compute_signal in H. repeat inv_bind H. injection H; intros; subst. auto.
Qed.
Lemma compute_constant_hor : forall E n k p c v n' (k' : option nat) c', compute_constant E n k p c = Ok (v, n', k', c') ->
  start_time n' = start_time n /\ end_time n' = end_time n.
Proof.
  intros E n k p c v n' k' c' H. unfold compute_constant in H. repeat inv_bind H. injection H; intros; subst. auto.
Qed.

Lemma horizons_compute_rob : forall E (t : tree T) v t', compute_rob E t = Ok (v, t') -> horizons t' = horizons t.
Proof.
  intros E.
  induction t; intros w t' H; cbn [compute_rob] in H; repeat inv_bind H;
    assert (H' := f_equal (fun r => match r with Ok (_, x) => horizons x | _ => horizons t' end) H); cbn beta iota in H';
    rewrite <- H'; cbn [horizons node with_z start_time end_time]; rewrite ?horizons_set_z; subst;
    try (rewrite (IHt _ _ eq_refl); reflexivity);
    try (rewrite (IHt1 _ _ eq_refl), (IHt2 _ _ eq_refl); reflexivity).
  - match goal with X : compute_signal _ _ _ _ = _ |- _ => apply compute_signal_hor in X as [-> ->] end. reflexivity.
  - match goal with X : compute_constant _ _ _ _ _ = _ |- _ => apply compute_constant_hor in X as [-> ->] end. reflexivity.
Qed.

Lemma horizons_default_bound : forall E up v (t : tree T) w t', default_bound E up (v, t) = Ok (w, t') -> horizons t' = horizons t.
Proof.
  intros E up v t w t' H. unfold default_bound in H. cbn [snd] in H. repeat inv_bind H;
    injection H; intros; subst; destruct t, up; reflexivity.
Qed.

Lemma horizons_compute_bound : forall E (t : tree T) up v t', compute_bound E up t = Ok (v, t') -> horizons t' = horizons t.
Proof.
  intros E.
  induction t; intros up w t' H; cbn [compute_bound] in H;
    try (inv_bind H; match goal with X : compute_rob _ _ = Ok ?q |- _ => destruct q as [? ?]; apply horizons_default_bound in H; apply horizons_compute_rob in X; congruence end);
    repeat inv_bind H; injection H; intros; subst; cbn [horizons node];
    repeat match goal with
    | IH : forall up v t', compute_bound E up ?c = Ok (v, t') -> _, X : compute_bound E _ ?c = Ok _ |- _ =>
        rewrite (IH _ _ _ X); clear X
    end;
    try reflexivity; destruct up; reflexivity.
Qed.

Lemma horizons_evaluate : forall E (t : tree T) s e a b c t', evaluate E t s e = Ok (a, b, c, t') ->
  horizons t' = horizons (prepare E t s e).
Proof.
  intros E t s e a b c t' H. unfold evaluate in H.
  destruct (compute_rob E (prepare E t s e)) as [[v1 t1]| | | |] eqn:X1; cbn [bind] in H; try discriminate H.
  destruct (compute_bound E false t1) as [[v2 t2]| | | |] eqn:X2; cbn [bind] in H; try discriminate H.
  destruct (compute_bound E true t2) as [[v3 t3]| | | |] eqn:X3; cbn [bind] in H; try discriminate H.
  injection H; intros; subst. apply horizons_compute_rob in X1. apply horizons_compute_bound in X2, X3. congruence.
Qed.

End Hor.
From Coq Require Import QArith Qcanon.
Section HorQ.
Local Open Scope Qc_scope.

Lemma horizons_prepare : forall E (t : tree Qc) s e,
  horizons (prepare E t s e) = map (fun x => (fst x, (s + fst (snd x), e + snd (snd x)))) (offsets (bound_value E) (skel t)).
Proof.
  intros E. unfold prepare.
  assert (U : forall d s e a b l,
    map (under d) (map (fun x : list bool * (Qc * Qc) => (fst x, (s + a + fst (snd x), e + b + snd (snd x)))) l) =
    map (fun x => (fst x, (s + fst (snd x), e + snd (snd x)))) (map (offset d a b) l)).
  { intros d s e a b l. rewrite !map_map. apply map_ext. intros [p [x y]]. unfold under, offset. cbn [fst snd]. rewrite !Qcplus_assoc. reflexivity. }
  assert (U0 : forall d s e l,
    map (under d) (map (fun x : list bool * (Qc * Qc) => (fst x, (s + fst (snd x), e + snd (snd x)))) l) =
    map (fun x => (fst x, (s + fst (snd x), e + snd (snd x)))) (map (offset d 0 0) l)).
  { intros d s e l. rewrite <- U. rewrite !Qcplus_0_r. reflexivity. }
  assert (U1 : forall d s e b l,
    map (under d) (map (fun x : list bool * (Qc * Qc) => (fst x, (s + fst (snd x), e + b + snd (snd x)))) l) =
    map (fun x => (fst x, (s + fst (snd x), e + snd (snd x)))) (map (offset d 0 b) l)).
  { intros d s e b l. rewrite <- U. rewrite !Qcplus_0_r. reflexivity. }
  induction t; intros s e; cbn [set_trace set_params reset set_horizon horizons skel offsets];
    rewrite ?map_app; cbn [node with_horizon start_time end_time map fst snd]; rewrite ?Qcplus_0_r, ?map_app;
    repeat match goal with IH : forall _ _, horizons _ = _ |- _ => rewrite IH; clear IH end;
    unfold nadd; cbn [NumQc];
    first [reflexivity | rewrite !U0; reflexivity | rewrite U; reflexivity | rewrite U1, U; reflexivity].
Qed.

End HorQ.

(** ** Histories of one object *)
Section History.
Context {T : Type} {N : Num T}.

(** What can happen to a transducer object between two evaluations: another
    evaluation, with any data, parameters, semantics and times; set_param with a
    parameter name; being replaced by its clone. *)
Inductive step : tree T -> tree T -> Prop :=
| step_eval : forall E t s e a b c t', evaluate E t s e = Ok (a, b, c, t') -> step t t'
| step_param : forall t k w, k <> EmptyString -> step t (tree_set_param k w t)
| step_clone : forall t, step t (clone t).

Inductive history : tree T -> tree T -> Prop :=
| h_refl : forall t, history t t
| h_step : forall t t' t'', step t t' -> history t' t'' -> history t t''.

Lemma skel_history : forall t t', history t t' -> skel t' = skel t.
Proof.
  intros t t' H. induction H as [|t t' t'' S H IH]; [reflexivity|]. rewrite IH. destruct S.
  - apply skel_evaluate in H0. rewrite H0. apply skel_prepare.
  - apply skel_set_param. auto.
  - apply skel_clone.
Qed.

Lemma history_repeatable : forall E t t' s e, history t t' ->
  numbers (evaluate E t' s e) = numbers (evaluate E t s e).
Proof. intros E t t' s e H. apply evaluate_skel. apply skel_history. auto. Qed.

End History.
