(** Reading a trace into a signal: signals and constants under linear interpolation. *)
From Coq Require Import List QArith Qcanon Bool String Lia.
From Verif Require Import Num Base Signal QcTac Spec Robust Repr SimplifyProof Lip Closed SigProof ResizeProof Transducer StlSpec TreeProof TimedProof.
Import ListNotations.
Local Open Scope Qc_scope.

(** ** Interpolation as a function *)
Fixpoint interp (l : list (Qc * Qc)) (u : Qc) : Qc :=
  match l with
  | nil => 0
  | (t1, v1) :: l' =>
      match l' with
      | nil => v1
      | (t2, v2) :: _ =>
          if Qclt_le_dec t1 u
          then if Qclt_le_dec t2 u then interp l' u
               else v1 + (v2 - v1) / (t2 - t1) * (u - t1)
          else v1
      end
  end.

Lemma interp_cons : forall t1 v1 t2 v2 l u, interp ((t1, v1) :: (t2, v2) :: l) u =
  if Qclt_le_dec t1 u
  then if Qclt_le_dec t2 u then interp ((t2, v2) :: l) u else v1 + (v2 - v1) / (t2 - t1) * (u - t1)
  else v1.
Proof. reflexivity. Qed.

Lemma linear_cons : forall p l u v, l <> [] -> rising (p :: l) -> hd 0 (map fst l) <= u -> linear l u v -> linear (p :: l) u v.
Proof.
  intros [t0 v0] l u v N R H L. destruct L.
  - subst l. cbn [map hd fst] in H. assert (u = t1) by (apply Qcle_antisym; auto). subst u.
    assert (D : t0 < t1). { destruct R as [R _]. inversion R; auto. }
    pose proof (lin_seg ((t0, v0) :: (t1, v1) :: l2) t1 [] t0 v0 t1 v1 l2 eq_refl (Qclt_le_weak _ _ D) H) as L.
    replace (v0 + (v1 - v0) / (t1 - t0) * (t1 - t0)) with v1 in L; auto.
    field. intro C. qlra.
  - subst l. eapply lin_seg with (l1 := (t0, v0) :: l1); [reflexivity|auto|auto].
  - subst l. eapply lin_last with (l1 := (t0, v0) :: l1); [reflexivity|auto].
Qed.

Lemma interp_linear : forall l u, l <> [] -> rising l -> linear l u (interp l u).
Proof.
  induction l as [|[t1 v1] l IH]; intros u N R; [congruence|].
  destruct l as [|[t2 v2] l].
  - cbn [interp]. destruct (Qclt_le_dec t1 u).
    + eapply lin_last with (l1 := []); [reflexivity|qlra].
    + eapply lin_first; [reflexivity|auto].
  - rewrite interp_cons. destruct (Qclt_le_dec t1 u).
    + destruct (Qclt_le_dec t2 u).
      * apply linear_cons; [discriminate|exact R|cbn; qlra|]. apply IH; [discriminate|]. apply R.
      * eapply lin_seg with (l1 := []); [reflexivity|qlra|qlra].
    + eapply lin_first; [reflexivity|auto].
Qed.

Lemma linear_interp : forall l u v, rising l -> linear l u v -> v = interp l u.
Proof.
  intros l u v R L. assert (l <> []). { destruct L; subst; try discriminate; intro C; destruct l1; discriminate. }
  eapply linear_unique; eauto. apply interp_linear; auto.
Qed.

(** Only the points up to the first one at or after [u] matter. *)
Lemma interp_prefix : forall l r u, l <> [] -> u <= last (map fst l) 0 -> interp (l ++ r) u = interp l u.
Proof.
  induction l as [|[t1 v1] l IH]; intros r u N H; [congruence|].
  destruct l as [|[t2 v2] l].
  - cbn [map fst last] in H. cbn [app interp]. destruct r as [|[t2 v2] r]; auto.
    destruct (Qclt_le_dec t1 u); [qlra|auto].
  - change (((t1, v1) :: (t2, v2) :: l) ++ r) with ((t1, v1) :: (t2, v2) :: l ++ r).
    rewrite !interp_cons. destruct (Qclt_le_dec t1 u); auto. destruct (Qclt_le_dec t2 u); auto.
    change ((t2, v2) :: l ++ r) with (((t2, v2) :: l) ++ r). apply IH; [discriminate|exact H].
Qed.

Lemma interp_before : forall t v l u, u <= t -> interp ((t, v) :: l) u = v.
Proof.
  intros t v [|[t2 v2] l] u H; cbn [interp]; auto. destruct (Qclt_le_dec t u); [qlra|auto].
Qed.

Lemma interp_const : forall c l u, Forall (fun p => snd p = c) l -> l <> [] -> interp l u = c.
Proof.
  induction l as [|[t1 v1] l IH]; intros u F N; [congruence|].
  inversion F as [|? ? F1 F2]; subst. cbn [snd].
  destruct l as [|[t2 v2] l]; [reflexivity|].
  inversion F2 as [|? ? F3 F4]; subst. cbn [snd] in *. rewrite interp_cons.
  destruct (Qclt_le_dec t1 u); auto. destruct (Qclt_le_dec t2 u).
  - apply IH; [auto|discriminate].
  - subst v2. unfold Qcdiv. ring.
Qed.

Lemma rising_last : forall l p, rising l -> In p l -> fst p <= last (map fst l) 0.
Proof.
  induction l as [|q l IH]; intros p R I; [destruct I|]. destruct R as [R1 R2].
  destruct I as [->|I].
  - destruct l as [|r l]; [cbn; qlra|]. inversion R1; subst.
    specialize (IH r R2 (or_introl eq_refl)). cbn [map last] in *. qlra.
  - destruct l as [|r l]; [destruct I|]. exact (IH p R2 I).
Qed.

Lemma lin_rep : forall l r, rising (l ++ r) -> l <> [] ->
  prepQ true (fun u v => interp (l ++ r) u = v) (last (map fst l) 0) (lin_samples l) (hd 0 (map fst l)).
Proof.
  intros l r R N. destruct (rising_app _ _ R) as (R1 & _ & _).
  assert (C : crepQ (fun u v => interp (l ++ r) u = v) (mkSig (lin_samples l) (hd 0 (map fst l)) (last (map fst l) 0))).
  { apply (simple_crep _ (interp (l ++ r))).
    - unfold simple. cbn [samples beginTime endTime]. split; [|split; [apply lin_ordered; auto|split; [apply lin_cont; auto|]]].
      + destruct l as [|[t v] [|[t2 v2] l]]; [congruence| |]; cbn [lin_samples]; do 2 eexists; split; try reflexivity.
      + apply Forall_forall. intros q I. assert (I' : In (tv q) l). { rewrite <- (tv_lin l). apply in_map. auto. }
        apply rising_last with (p := tv q) in I'; auto.
    - cbn [samples beginTime endTime]. intros t H1 H2. apply eval_denotes. apply lin_eval; auto.
      + rewrite interp_prefix by auto. apply interp_linear; auto.
      + destruct l as [|p l]; [congruence|]. cbn [map hd hd_error] in *. eauto. }
  destruct C as [_ C]. exact C.
Qed.

(** ** The reading loops *)
Fixpoint read_pts (ip : interpol) (e : Qc) (z : signal Qc) (t v : Qc) (pts : list (Qc * Qc)) (k : nat)
  : res (signal Qc * Qc * Qc * nat) :=
  if nleb t e then
    match pts with
    | nil => Ok (z, t, v, k)
    | (t', v') :: pts' => z' <- appendSample ip z t' v' ;; read_pts ip e z' t' v' pts' (S k)
    end
  else Ok (z, t, v, k).

Lemma read_signal_pts : forall ip col e rows z t v k, Forall (fun r => (col < List.length r)%nat) rows ->
  read_signal ip col e z t v rows k = read_pts ip e z t v (column rows col) k.
Proof.
  induction rows as [|row rows IH]; intros z t v k F; [reflexivity|].
  inversion F as [|? ? F1 F2]; subst. cbn [read_signal column map read_pts].
  destruct (nleb t e); [|reflexivity].
  destruct row as [|t' row]; [cbn in F1; lia|]. cbn [nth_error].
  rewrite (nth_error_nth' (t' :: row) 0 F1). change (row_time (t' :: row)) with t'.
  destruct (appendSample ip z t' (nth col (t' :: row) 0)); try reflexivity. cbn [bind].
  apply IH; auto.
Qed.

Definition level (rows : list (list Qc)) (c : Qc) : list (Qc * Qc) := map (fun r => (row_time r, c)) rows.

Lemma read_constant_pts : forall ip e c rows z t k, Forall (fun r => r <> []) rows ->
  read_constant ip e z t c rows k =
  ('(z, t, _, k) <- read_pts ip e z t c (level rows c) k ;; Ok (z, t, k)).
Proof.
  induction rows as [|row rows IH]; intros z t k F; cbn [read_constant level map read_pts].
  - destruct (nleb t e); reflexivity.
  - inversion F as [|? ? F1 F2]; subst. destruct (nleb t e); [|reflexivity].
    destruct row as [|t' row]; [congruence|]. cbn [nth_error]. unfold row_time. cbn [nth].
    destruct (appendSample ip z t' c); try reflexivity. cbn [bind]. apply IH; auto.
Qed.

(** The points read: up to and including the first one after [e]. *)
Fixpoint upto (t e : Qc) (pts : list (Qc * Qc)) : list (Qc * Qc) :=
  if nleb t e then
    match pts with nil => nil | p :: pts' => p :: upto (fst p) e pts' end
  else nil.

Lemma upto_prefix : forall pts t e, exists r, pts = upto t e pts ++ r /\
  (r = [] \/ e < last (t :: map fst (upto t e pts)) 0).
Proof.
  induction pts as [|p pts IH]; intros t e; cbn [upto]; qcase; cbn [map last];
    try (eexists; split; [reflexivity|auto]; fail).
  destruct (IH (fst p) e) as (r & E & D). exists r. split; [cbn [app]; congruence|].
  destruct D as [D|D]; auto.
Qed.

Lemma upto_times : forall pts t e p, In p (upto t e pts) -> fst p <= e \/ fst p = last (map fst (upto t e pts)) 0.
Proof.
  induction pts as [|p pts IH]; intros t e q; cbn [upto]; qcase; cbn [map last In]; try tauto.
  intros [->|I].
  - destruct (Qclt_le_dec e (fst q)); auto. right. destruct pts; cbn [upto]; qcase; try reflexivity; qlra.
  - destruct (IH (fst p) e q I) as [D|D]; auto. right. rewrite D.
    destruct (upto (fst p) e pts); [destruct I|reflexivity].
Qed.

Lemma read_snoc : forall e pts pre s w b k, rising (pre ++ (s, w) :: pts) ->
  read_pts LINEAR e (mkSig (lin_samples (pre ++ [(s, w)])) b s) s w pts k =
  Ok (mkSig (lin_samples (pre ++ (s, w) :: upto s e pts)) b (last (s :: map fst (upto s e pts)) 0),
      last (s :: map fst (upto s e pts)) 0, last (w :: map snd (upto s e pts)) 0,
      (k + List.length (upto s e pts))%nat).
Proof.
  induction pts as [|[t v] pts IH]; intros pre s w b k R; cbn [read_pts upto]; qcase; cbn [map last List.length fst snd];
    try (rewrite Nat.add_0_r; reflexivity).
  assert (D : s < t). { destruct (rising_app _ _ R) as (_ & R2 & _). destruct R2 as [R2 _]. inversion R2; auto. }
  change (lin_samples (pre ++ [(s, w)])) with (rec_samples LINEAR (pre ++ [(s, w)])).
  rewrite (append_step LINEAR pre s w t v b D). cbn [bind].
  change (rec_samples LINEAR) with lin_samples.
  replace (pre ++ [(s, w); (t, v)]) with ((pre ++ [(s, w)]) ++ [(t, v)]) by (rewrite <- app_assoc; reflexivity).
  rewrite IH by (rewrite <- app_assoc; exact R). rewrite <- app_assoc. cbn [app].
  replace (S k + List.length (upto t e pts))%nat with (k + S (List.length (upto t e pts)))%nat by lia.
  reflexivity.
Qed.

Lemma read_all : forall e t0 v0 v pts, rising ((t0, v0) :: pts) -> 0 <= e ->
  let U := (t0, v0) :: upto t0 e pts in
  read_pts LINEAR e empty_signal n0 v ((t0, v0) :: pts) 0 =
  Ok (mkSig (lin_samples U) t0 (last (map fst U) 0), last (map fst U) 0, last (map snd U) 0, List.length U).
Proof.
  intros e t0 v0 v pts R H. cbn [read_pts].
  assert (B : nleb n0 e = true) by (apply nleb_true; exact H). rewrite B.
  rewrite append_first by reflexivity. cbn [bind].
  exact (read_snoc e pts [] t0 v0 t0 1%nat R).
Qed.

(** ** Trimming *)
Lemma increasing_app : forall l1 l2 : list (sample Qc), increasing (l1 ++ l2) -> increasing l1 /\ increasing l2.
Proof.
  induction l1 as [|p l1 IH]; intros l2 H; cbn [app increasing] in *; auto.
  destruct H as [H1 H2]. apply Forall_app in H1. destruct (IH _ H2). tauto.
Qed.

Lemma front_increasing : forall x s l e, increasing (samples x) -> Forall (fun q => beginTime x <= time q) (samples x) ->
  resize_front x s = Ok (l, e) -> increasing l.
Proof.
  intros x s l e I B H. unfold resize_front in H. qtest (nltb s (beginTime x)).
  - destruct (samples x) as [|f r] eqn:S; [discriminate|]. cbn [deref bind] in H. injection H as H1 H2. subst l.
    split; [|exact I]. eapply Forall_impl; [|exact B]. cbn. intros. qlra.
  - destruct (pop_front_spec s (samples x) default_sample) as [pre P].
    destruct (pop_front_lt s default_sample (samples x)) as [f l'].
    destruct P as (P1 & P2 & P3 & _). rewrite P1 in I. apply increasing_app in I. destruct I as [_ I].
    destruct l' as [|q l'].
    + injection H as H1 H2. subst l. repeat split. constructor.
    + qtest (nltb s (time q)); injection H as H1 H2; subst l; auto.
      split; auto. cbn [time]. constructor; auto. destruct I as [I _]. eapply Forall_impl; [|exact I]. cbn. intros. qlra.
Qed.

Lemma front_end : forall l b e e' s l' e1, resize_front (mkSig l b e) s = Ok (l', e1) -> s <= e' ->
  resize_front (mkSig l b e') s = Ok (l', e').
Proof.
  intros l b e e' s l' e1 H D. unfold resize_front in *. cbn [samples beginTime endTime] in *.
  destruct (nltb s b).
  - destruct (deref l); try discriminate. cbn [bind] in *. injection H as H1 H2. subst. reflexivity.
  - destruct (pop_front_lt s default_sample l) as [f [|q r]].
    + injection H as H1 H2. subst. assert (B : nltb e' s = false) by (apply nltb_false; auto). rewrite B. reflexivity.
    + destruct (nltb s (time q)); injection H as H1 H2; subst; reflexivity.
Qed.

Lemma lin_in : forall l q, In q (lin_samples l) -> In (tv q) l.
Proof. intros l q I. rewrite <- (tv_lin l). apply in_map. auto. Qed.
Lemma in_lin : forall l p, In p l -> exists q, In q (lin_samples l) /\ tv q = p.
Proof. intros l p I. rewrite <- (tv_lin l) in I. apply in_map_iff in I. destruct I as (q & E & I). eauto. Qed.

Lemma hd_rising : forall l p, rising l -> In p l -> hd 0 (map fst l) <= fst p.
Proof.
  intros [|q l] p R I; [destruct I|]. cbn [map hd]. destruct I as [->|I]; [qlra|].
  destruct R as [R _]. rewrite Forall_forall in R. specialize (R p I). qlra.
Qed.

Lemma last_in : forall l : list (Qc * Qc), l <> [] -> exists p, In p l /\ fst p = last (map fst l) 0.
Proof.
  intros l N. destruct (exists_last N) as (r & p & ->). exists p. split; [apply in_or_app; right; left; reflexivity|].
  rewrite map_app. cbn [map]. rewrite last_last. reflexivity.
Qed.

(** What is known of a leaf after reading: [pts] are the points behind it. *)
Record leaf_sig (pts : list (Qc * Qc)) (s e : Qc) (z : signal Qc) : Prop := {
  ls_begin : beginTime z = s;
  ls_end : endTime z = e;
  ls_rep : crepQ (fun u v => interp pts u = v) z;
  ls_inc : increasing (samples z);
  ls_times : forall q, In q (samples z) -> time q = s \/ In (time q) (map fst pts);
  ls_all : forall t, In t (map fst pts) -> s <= t -> t <= e -> In t (map time (samples z))
}.

Lemma resize_leaf : forall U r s e tl b v, rising (U ++ r) -> U <> [] ->
  b = hd 0 (map fst U) -> tl = last (map fst U) 0 -> s <= e -> e <= tl ->
  exists z, resize (mkSig (lin_samples U) b e) s e v = Ok z /\ leaf_sig (U ++ r) s e z.
Proof.
  intros U r s e tl b v R N Hb Htl H1 H2.
  destruct (rising_app _ _ R) as (RU & _ & RR).
  pose proof (lin_rep U r R N) as P. rewrite <- Htl, <- Hb in P.
  assert (NL : lin_samples U <> []). { destruct U as [|? [|? ?]]; [congruence| |]; discriminate. }
  assert (INC : increasing (lin_samples U)) by (apply (rec_increasing LINEAR); auto).
  assert (BF : Forall (fun q => b <= time q) (lin_samples U)).
  { apply Forall_forall. intros q I. apply lin_in in I. subst b. apply (hd_rising U (tv q)) in I; auto. }
  assert (F : exists l, resize_front (mkSig (lin_samples U) b tl) s = Ok (l, tl) /\
    prepQ true (fun u v => interp (U ++ r) u = v) tl l s /\ l <> [] /\
    (forall q, In q l -> time q = s \/ In q (lin_samples U)) /\
    (forall q, In q (lin_samples U) -> s <= time q -> In q l)).
  { destruct (Qclt_le_dec s b) as [L|L].
    - unfold resize_front. cbn [samples beginTime endTime]. assert (B : nltb s b = true) by (apply nltb_true; auto).
      rewrite B. destruct U as [|[t0 v0] U]; [congruence|]. cbn [map hd fst] in Hb. subst t0.
      assert (X : exists d rest, lin_samples ((b, v0) :: U) = mkS b v0 d :: rest).
      { destruct U as [|? ?]; cbn [lin_samples fst snd]; eauto. }
      destruct X as (d & rest & X). rewrite X in *. cbn [deref bind value].
      eexists. split; [reflexivity|]. split; [|split; [discriminate|split]].
      + eapply prep_cons with (t' := b); [reflexivity|qlra| |exact P].
        intros u U1 U2. change n0 with 0. unfold line. cbn [value deriv time rlt] in *.
        change (((b, v0) :: U) ++ r) with ((b, v0) :: U ++ r). rewrite interp_before by auto. ring.
      + intros q [<-|I]; auto.
      + intros q I _. right. auto.
    - destruct (resize_front_q _ (mkSig (lin_samples U) b tl) s (conj NL P)) as (l & e' & F1 & F2 & F3 & _ & F4 & F5 & F6);
        cbn [beginTime endTime]; [auto|qlra|].
      cbn [samples endTime] in *. exists l. split; [exact F1|].
      assert (E' : e' = tl).
      { apply F4. destruct (last_in U N) as (p & I & E). destruct (in_lin _ _ I) as (q & I' & E').
        exists q. split; auto. rewrite <- E' in E. cbn [tv fst] in E. qlra. }
      subst e'. auto. }
  destruct F as (l & F1 & F2 & F3 & F4 & F5).
  assert (IL : increasing l) by (eapply front_increasing; [| |exact F1]; auto).
  destruct (prepQ_cut _ _ _ _ e F2 F3 H1 H2) as (C1 & C2).
  destruct (pop_back_le e l (increasing_ordered _ IL)) as (l2 & D1 & D2 & D3).
  remember (pop_back_while (fun p => nltb e (time p)) l) as l1 eqn:EL.
  exists (mkSig l1 s e). split.
  - unfold resize. rewrite eps_lt by auto. assert (B : nltb e s = false) by (apply nltb_false; auto). rewrite B.
    rewrite (front_end _ _ _ e _ _ _ F1 H1). cbn [bind]. unfold resize_back.
    assert (B2 : nltb e e = false) by (apply nltb_false; qlra). rewrite B2. cbn [bind].
    rewrite <- EL. destruct l1; [congruence|reflexivity].
  - rewrite D1 in IL. destruct (increasing_app _ _ IL) as [IL1 _].
    constructor; cbn [beginTime endTime samples]; auto.
    + split; auto.
    + intros q I. destruct (F4 q) as [G|G]; auto. { rewrite D1. apply in_or_app. auto. }
      right. apply lin_in in G. apply in_map_iff. exists (tv q). split; auto. apply in_or_app. auto.
    + intros t I T1 T2. apply in_map_iff in I. destruct I as (p & <- & I). apply in_app_or in I.
      destruct I as [I|I].
      * destruct (in_lin _ _ I) as (q & I' & E'). rewrite <- E' in *. cbn [tv fst] in *.
        apply in_map. specialize (F5 q I' T1). rewrite D1 in F5. apply in_app_or in F5.
        destruct F5 as [G|G]; auto. rewrite Forall_forall in D3. specialize (D3 q G). qlra.
      * destruct (last_in U N) as (q & I' & E'). specialize (RR q p I' I). qlra.
Qed.

(** ** Leaves *)
Lemma qmin_case : forall a b : Qc, (a <= b /\ qmin a b = a) \/ (b < a /\ qmin a b = b).
Proof. intros a b. unfold qmin. destruct (Qclt_le_dec b a); auto. Qed.

Lemma smax_max : forall a b : Qc, a <= b -> smax a b = b.
Proof. intros a b H. unfold smax. qcase; auto. apply Qcle_antisym; auto. Qed.

Definition end_of (pts : list (Qc * Qc)) : Qc := last (map fst pts) 0.

(** What a leaf object keeps between passes. *)
Record leaf_state (pts : list (Qc * Qc)) (s e : Qc) (n : nst Qc) (k : nat) : Prop := {
  lst_start : start_time n = s;
  lst_stop : end_time n = e;
  lst_some : samples (nz n) <> [];
  lst_times : Forall (fun q => time q <= endTime (nz n)) (samples (nz n));
  lst_end : endTime (nz n) = qmin e (end_of pts);
  lst_done : end_of pts <= e -> k = List.length pts;
  lst_later : e < end_of pts -> Forall (fun p => e < fst p) (skipn k pts)
}.

Lemma leaf_first : forall pts s e n v w, pts <> [] -> rising pts -> nz n = empty_signal ->
  start_time n = s -> end_time n = e -> 0 <= e -> s <= e -> s <= end_of pts ->
  exists z t x k, read_pts LINEAR e (nz n) n0 v pts 0 = Ok (z, t, x, k) /\
    forall w', w' = w \/ w' = x -> exists z', trim_read n z t w' = Ok z' /\ leaf_sig pts s (qmin e (end_of pts)) z' /\
      leaf_state pts s e (with_z n z') k.
Proof.
  intros pts s e n v w N R Z Hs He H0 H1 H2. destruct pts as [|[t0 v0] pts]; [congruence|].
  rewrite Z, (read_all e t0 v0 v pts R H0).
  destruct (upto_prefix pts t0 e) as (r & P1 & P2).
  remember (upto t0 e pts) as U0 eqn:EU. remember ((t0, v0) :: U0) as U eqn:EU2.
  assert (PU : (t0, v0) :: pts = U ++ r) by (rewrite EU2; cbn [app]; congruence).
  assert (NU : U <> []) by (subst U; discriminate).
  assert (P2' : r = [] \/ e < last (map fst U) 0) by (rewrite EU2; exact P2).
  rewrite PU in *. do 4 eexists. split; [reflexivity|]. intros w' _.
  set (tl := last (map fst U) 0) in *.
  assert (LE : tl <= end_of (U ++ r)).
  { destruct (last_in U NU) as (p & I & E). unfold tl. rewrite <- E. apply rising_last; auto. apply in_or_app; auto. }
  assert (X : exists z', trim_read n (mkSig (lin_samples U) t0 tl) tl w' = Ok z' /\ leaf_sig (U ++ r) s (qmin e (end_of (U ++ r))) z').
  { unfold trim_read. cbn [samples beginTime]. rewrite He, Hs.
    assert (Y : exists e', e' = qmin e (end_of (U ++ r)) /\ s <= e' /\ e' <= tl /\
      (if nltb e tl then mkSig (lin_samples U) t0 e else mkSig (lin_samples U) t0 tl) = mkSig (lin_samples U) t0 e').
    { qtest (nltb e tl).
      - exists e. destruct (qmin_case e (end_of (U ++ r))) as [[A B]|[A B]]; rewrite B; [|qlra].
        split; [reflexivity|split; [auto|split; [qlra|reflexivity]]].
      - destruct P2' as [->|P2']; [|unfold tl in *; qlra]. rewrite app_nil_r in *. fold tl in LE.
        change (end_of U) with tl in *. exists tl. split; [|split; [auto|split; [qlra|reflexivity]]].
        destruct (qmin_case e tl) as [[A B]|[A B]]; rewrite B; auto. apply Qcle_antisym; auto. }
    destruct Y as (e' & Y1 & Y2 & Y3 & Y4). rewrite Y4. cbn [endTime]. rewrite <- Y1.
    assert (Z2 : (if nltb s e' then resize (mkSig (lin_samples U) t0 e') s (smax s e') w' else resize (mkSig (lin_samples U) t0 e') e' e' w') = resize (mkSig (lin_samples U) t0 e') s e' w').
    { qtest (nltb s e'); [rewrite smax_max by auto; reflexivity|].
      assert (SE : s = e') by (apply Qcle_antisym; auto). rewrite SE. reflexivity. }
    rewrite Z2. apply (resize_leaf U r s e' tl t0 w'); auto. subst U. reflexivity. }
  destruct X as (z' & X1 & X2). exists z'. split; [exact X1|]. split; [exact X2|].
  destruct X2 as [A1 A2 A3 A4 A5 A6].
  constructor; cbn [with_z nz start_time end_time]; auto.
  - apply A3.
  - destruct A3 as [_ A3]. apply prepQ_le_end in A3. exact A3.
  - intros D. destruct P2' as [->|P2']; [rewrite app_nil_r; reflexivity|]. unfold tl in *. qlra.
  - intros D. assert (Y : Forall (fun p => e < fst p) r).
    { destruct P2' as [->|P2']; [constructor|]. apply Forall_forall. intros p I.
      destruct (last_in U NU) as (q & I' & E'). destruct (rising_app _ _ R) as (_ & _ & RR).
      specialize (RR q p I' I). unfold tl in *. qlra. }
    rewrite skipn_app, skipn_all, Nat.sub_diag. exact Y.
Qed.

Lemma front_some : forall x s, samples x <> [] -> exists l e, resize_front x s = Ok (l, e) /\ l <> [] /\
  e = (if nltb (endTime x) s then e else endTime x).
Proof.
  intros x s N. unfold resize_front. qtest (nltb s (beginTime x)).
  - destruct (samples x) as [|f r]; [congruence|]. cbn [deref bind]. do 2 eexists.
    split; [reflexivity|]. split; [discriminate|]. qcase; reflexivity.
  - destruct (pop_front_lt s default_sample (samples x)) as [f [|q l]].
    + do 2 eexists. split; [reflexivity|]. split; [discriminate|]. qcase; reflexivity.
    + qtest (nltb s (time q)); do 2 eexists; (split; [reflexivity|]; split; [discriminate|qcase; reflexivity]).
Qed.

(** Resizing within the end time always succeeds and leaves no sample after it. *)
Lemma pop_back_last : forall t (l : list (sample Qc)), Forall (fun q => time q <= t) (removelast l) ->
  Forall (fun q => time q <= t) (pop_back_while (fun p => nltb t (time p)) l).
Proof.
  intros t l H. destruct (pop_back_spec _ (fun p => nltb t (time p)) l) as (l2 & A1 & A2 & A3).
  destruct A3 as [A3|(r & a & A3 & A4)]; rewrite A3 in *; [constructor|].
  apply nltb_false in A4. apply Forall_app. split; [|constructor; auto].
  rewrite A1, <- app_assoc in H. cbn [app] in H.
  destruct l2 as [|p l2].
  - rewrite removelast_last in H. exact H.
  - rewrite removelast_app in H by discriminate. apply Forall_app in H. tauto.
Qed.

Lemma front_removelast : forall x s l e t, resize_front x s = Ok (l, e) -> s <= t ->
  Forall (fun q => time q <= t) (removelast (samples x)) -> Forall (fun q => time q <= t) (removelast l).
Proof.
  intros x s l e t H D F. unfold resize_front in H. qtest (nltb s (beginTime x)).
  - destruct (samples x) as [|f r] eqn:S; [discriminate|]. cbn [deref bind] in H. injection H as H1 H2. subst l.
    change (Forall (fun q => time q <= t) (mkS s (value f) n0 :: removelast (f :: r))). constructor; auto.
  - destruct (pop_front_spec s (samples x) default_sample) as [pre P].
    destruct (pop_front_lt s default_sample (samples x)) as [f l'].
    destruct P as (P1 & P2 & P3 & _).
    destruct l' as [|q l'].
    + injection H as H1 H2. subst l. constructor.
    + assert (G : Forall (fun q => time q <= t) (removelast (q :: l'))).
      { rewrite P1, removelast_app in F by discriminate. apply Forall_app in F. tauto. }
      qtest (nltb s (time q)); injection H as H1 H2; subst l; auto.
      change (Forall (fun q => time q <= t) (mkS s (valueAt f s) (deriv f) :: removelast (q :: l'))). constructor; auto.
Qed.

Lemma resize_some : forall x s e v, samples x <> [] -> s <= e -> endTime x = e ->
  Forall (fun q => time q <= e) (removelast (samples x)) ->
  exists z, resize x s e v = Ok z /\ endTime z = e /\ beginTime z = s /\ samples z <> [] /\ Forall (fun q => time q <= e) (samples z).
Proof.
  intros x s e v N H X F. destruct (front_some x s N) as (l & e1 & F1 & F2 & F3).
  assert (B0 : nltb e s = false) by (apply nltb_false; auto). rewrite X, B0 in F3. subst e1.
  unfold resize. rewrite eps_lt by auto. rewrite B0, F1. cbn [bind]. unfold resize_back.
  assert (B2 : nltb e e = false) by (apply nltb_false; qlra). rewrite B2. cbn [bind].
  pose proof (pop_back_last e l (front_removelast _ _ _ _ _ F1 H F)) as P.
  destruct (pop_back_while (fun p => nltb e (time p)) l) as [|q r].
  - eexists. split; [reflexivity|]. cbn [samples endTime beginTime]. split; [reflexivity|]. split; [reflexivity|].
    split; [discriminate|]. repeat constructor. exact H.
  - eexists. split; [reflexivity|]. cbn [samples endTime beginTime]. split; [reflexivity|]. split; [reflexivity|].
    split; [discriminate|]. exact P.
Qed.

Lemma set_back_times : forall (l : list (sample Qc)) d, map time (set_back_deriv l d) = map time l.
Proof.
  induction l as [|p l IH]; intros d; [reflexivity|]. destruct l as [|q l]; [reflexivity|].
  change (time p :: map time (set_back_deriv (q :: l) d) = time p :: map time (q :: l)). rewrite IH. reflexivity.
Qed.

Lemma forall_times : forall (P : Qc -> Prop) (l l' : list (sample Qc)), map time l = map time l' ->
  Forall (fun q => P (time q)) l -> Forall (fun q => P (time q)) l'.
Proof.
  intros P l l' E H. apply Forall_forall. intros q I.
  assert (I' : In (time q) (map time l)) by (rewrite E; apply in_map; auto).
  apply in_map_iff in I'. destruct I' as (q' & E' & I'). rewrite Forall_forall in H. rewrite <- E'. auto.
Qed.

Lemma append_later : forall z t v, samples z <> [] -> Forall (fun q => time q <= endTime z) (samples z) -> endTime z < t ->
  exists l, appendSample LINEAR z t v = Ok (mkSig (l ++ [mkS t v n0]) (beginTime z) t) /\ map time l = map time (samples z).
Proof.
  intros z t v N F H. unfold appendSample, appendSample3.
  assert (B : nleb t (endTime z) = false) by (apply nleb_false; auto). rewrite B. cbn [andb].
  destruct (samples z) as [|p l] eqn:S; [congruence|].
  assert (X : exists b, back (p :: l) = Ok b /\ In b (p :: l)).
  { destruct (exists_last N) as (r & b & E). rewrite E. exists b. split; [|apply in_or_app; right; left; reflexivity].
    apply back_app. }
  destruct X as (b & X1 & X2). rewrite X1. cbn [bind]. rewrite Forall_forall in F. specialize (F b X2).
  rewrite ndiv_some by (intro C; change (t - time b = 0) in C; qlra). cbn [bind].
  eexists. split; [reflexivity|]. apply set_back_times.
Qed.

Lemma removelast_snoc : forall A (l : list A) a, removelast (l ++ [a]) = l.
Proof. intros. apply removelast_last. Qed.

Lemma removelast_forall : forall A (P : A -> Prop) l, Forall P l -> Forall P (removelast l).
Proof.
  intros A P l H. destruct l as [|a l] using rev_ind; [constructor|].
  rewrite removelast_last. apply Forall_app in H. tauto.
Qed.

Lemma trim_again : forall pts s e n z t w, start_time n = s -> end_time n = e -> s <= e ->
  samples z <> [] -> (if nltb e t then e else endTime z) = qmin e (end_of pts) ->
  Forall (fun q => time q <= qmin e (end_of pts)) (removelast (samples z)) ->
  exists z', trim_read n z t w = Ok z' /\ endTime z' = qmin e (end_of pts) /\ samples z' <> [] /\
    Forall (fun q => time q <= endTime z') (samples z').
Proof.
  intros pts s e n z t w Hs He H N X F. unfold trim_read. rewrite Hs, He.
  remember (qmin e (end_of pts)) as E eqn:EE.
  assert (Y : exists z1, (if nltb e t then mkSig (samples z) (beginTime z) e else z) = z1 /\
    samples z1 = samples z /\ endTime z1 = E).
  { destruct (nltb e t); eexists; (split; [reflexivity|]); cbn [samples endTime]; auto. }
  destruct Y as (z1 & Y1 & Y2 & Y3). rewrite Y1, Y3.
  qtest (nltb s E).
  - rewrite smax_max by qlra. destruct (resize_some z1 s E w) as (z' & Z1 & Z2 & Z3 & Z4 & Z5); try (rewrite Y2); auto; try qlra.
    exists z'. rewrite Z2. auto.
  - destruct (resize_some z1 E E w) as (z' & Z1 & Z2 & Z3 & Z4 & Z5); try (rewrite Y2); auto; try qlra.
    exists z'. rewrite Z2. auto.
Qed.

Lemma skipn_next : forall A k (l : list A) a r, skipn k l = a :: r -> skipn (S k) l = r.
Proof.
  induction k as [|k IH]; intros l a r H.
  - cbn [skipn] in H. subst l. reflexivity.
  - destruct l as [|b l]; [discriminate|]. exact (IH l a r H).
Qed.

Lemma leaf_again : forall pts s e n k v, leaf_state pts s e n k -> 0 <= e -> s <= e ->
  exists z t x k', read_pts LINEAR e (nz n) n0 v (skipn k pts) k = Ok (z, t, x, k') /\
    forall w, exists z', trim_read n z t w = Ok z' /\ leaf_state pts s e (with_z n z') k'.
Proof.
  intros pts s e n k v [A1 A2 A3 A4 A5 A6 A7] H0 H1.
  assert (B0 : nleb n0 e = true) by (apply nleb_true; exact H0).
  assert (B1 : nltb e n0 = false) by (apply nltb_false; exact H0).
  destruct (skipn k pts) as [|[t v'] r] eqn:SK.
  - cbn [read_pts]. rewrite B0. do 4 eexists. split; [reflexivity|]. intros w.
    destruct (trim_again pts s e n (nz n) n0 w A1 A2 H1 A3) as (z' & Z1 & Z2 & Z3 & Z4).
    + rewrite B1. exact A5.
    + rewrite <- A5. apply removelast_forall. exact A4.
    + exists z'. split; [exact Z1|]. constructor; cbn [with_z nz start_time end_time]; auto.
      intros D. rewrite SK. constructor.
  - assert (D : e < end_of pts).
    { destruct (Qclt_le_dec e (end_of pts)) as [|D]; auto. rewrite (A6 D), skipn_all in SK. discriminate. }
    specialize (A7 D). assert (D2 : qmin e (end_of pts) = e).
    { destruct (qmin_case e (end_of pts)) as [[_ X]|[X _]]; [exact X|qlra]. }
    inversion A7 as [|? ? B2 B3]; subst. cbn [fst] in B2.
    cbn [read_pts]. rewrite B0. rewrite A5, D2 in A4.
    destruct (append_later (nz n) t v' A3) as (l & L1 & L2); [rewrite A5, D2; exact A4|rewrite A5, D2; exact B2|].
    rewrite L1. cbn [bind].
    assert (B4 : nleb t (end_time n) = false) by (apply nleb_false; auto).
    assert (RP : read_pts LINEAR (end_time n) (mkSig (l ++ [mkS t v' n0]) (beginTime (nz n)) t) t v' r (S k) =
                 Ok (mkSig (l ++ [mkS t v' n0]) (beginTime (nz n)) t, t, v', S k)).
    { destruct r; cbn [read_pts]; rewrite B4; reflexivity. }
    rewrite RP. do 4 eexists. split; [reflexivity|]. intros w.
    destruct (trim_again pts (start_time n) (end_time n) n (mkSig (l ++ [mkS t v' n0]) (beginTime (nz n)) t) t w) as (z' & Z1 & Z2 & Z3 & Z4); auto.
    + cbn [samples]. destruct l; discriminate.
    + assert (B5 : nltb (end_time n) t = true) by (apply nltb_true; auto). rewrite B5. auto.
    + cbn [samples]. rewrite removelast_last, D2. eapply (forall_times (fun x => x <= end_time n)); [symmetry; exact L2|exact A4].
    + exists z'. split; [exact Z1|]. constructor; cbn [with_z nz start_time end_time]; auto.
      * intros C. qlra.
      * intros _. rewrite (skipn_next _ _ _ _ _ SK). exact B3.
Qed.

(** ** Leaf objects *)
Section Leaf.
Variable E : env Qc.

Definition leaf_points (f : fml Qc) : list (Qc * Qc) :=
  match f with
  | FSig _ c => column (e_data E) c
  | FConst p v => level (e_data E) (eff E p v)
  | _ => []
  end.

(** [t] is an object for the operand [f] with state [n] and [k] rows read. *)
Definition leaf_tree (f : fml Qc) (t : tree Qc) (n : nst Qc) (k : nat) : Prop :=
  match f with
  | FSig v c => t = TSig n (Some k) v c
  | FConst p v => exists v', t = TConst n (Some k) p v' /\ eff E p v' = eff E p v
  | _ => False
  end.

Variable w : nat.
Hypothesis LIN : e_ip E = LINEAR.
Hypothesis TR : trace w (e_data E).

Lemma times_column : forall data c, map fst (column data c) = map row_time data.
Proof. intros. unfold column. rewrite map_map. reflexivity. Qed.
Lemma times_level : forall data c, map fst (level data c) = map row_time data.
Proof. intros. unfold level. rewrite map_map. reflexivity. Qed.
Lemma times_points : forall f, simple_operand w f -> map fst (leaf_points f) = map row_time (e_data E).
Proof. destruct f; cbn [simple_operand leaf_points]; intros []; intros; first [apply times_column|apply times_level]. Qed.

Lemma rising_times : forall l l' : list (Qc * Qc), map fst l = map fst l' -> rising l -> rising l'.
Proof.
  induction l as [|p l IH]; intros [|p' l'] EQ R; try discriminate; [constructor|].
  cbn [map] in EQ. injection EQ as EQ1 EQ2. destruct R as [R1 R2]. split; [|eapply IH; eauto].
  apply Forall_forall. intros q I. assert (I' : In (fst q) (map fst l)) by (rewrite EQ2; apply in_map; auto).
  apply in_map_iff in I'. destruct I' as (q' & X & I'). rewrite Forall_forall in R1. specialize (R1 _ I').
  congruence.
Qed.

Lemma points_rising : forall f, simple_operand w f -> rising (leaf_points f).
Proof.
  intros f H. destruct TR as (_ & R & _). eapply rising_times; [|exact R].
  rewrite times_points by auto. apply times_column.
Qed.
Lemma points_some : forall f, simple_operand w f -> leaf_points f <> [].
Proof.
  intros f H X. destruct TR as (D & _ & _). apply (f_equal (map fst)) in X. rewrite times_points in X by auto.
  destruct (e_data E); [congruence|discriminate].
Qed.
Lemma points_end : forall f, simple_operand w f -> end_of (leaf_points f) = last_time (e_data E).
Proof. intros f H. unfold end_of, last_time. rewrite times_points by auto. reflexivity. Qed.

Lemma operand_interp : forall f t v, simple_operand w f -> operand (eff E) (e_data E) f t v <-> v = interp (leaf_points f) t.
Proof.
  intros f t v H. pose proof (points_rising f H) as R. pose proof (points_some f H) as NE.
  destruct f; cbn [simple_operand] in H; try contradiction; cbn [operand leaf_points] in *.
  - split; [apply linear_interp; auto|]. intros ->. apply interp_linear; auto.
  - rewrite (interp_const (eff E p v0)); [tauto| |exact NE]. unfold level. apply Forall_forall. intros q I.
    apply in_map_iff in I. destruct I as (r & <- & _). reflexivity.
Qed.

Lemma rows_wide : forall k c, (c <= w)%nat -> Forall (fun r => (c < List.length r)%nat) (rows_from (e_data E) k).
Proof.
  intros k c H. destruct TR as (_ & _ & F). unfold rows_from. apply Forall_forall. intros r I.
  rewrite Forall_forall in F. specialize (F r). assert (In r (e_data E)).
  { rewrite <- (firstn_skipn k (e_data E)). apply in_or_app. auto. }
  specialize (F H0). lia.
Qed.

Lemma compute_leaf_ip : forall f t n k, simple_operand w f -> leaf_tree f t n k -> 0 <= end_time n ->
  forall P : signal Qc -> nat -> Prop,
  (forall v w, exists z t x k', read_pts (e_ip E) (end_time n) (nz n) n0 v (skipn k (leaf_points f)) k = Ok (z, t, x, k') /\
     forall w', w' = w \/ w' = x -> exists z', trim_read n z t w' = Ok z' /\ P z' k' /\ samples z' <> []) ->
  exists v t' z' k', compute_rob E t = Ok (v, t') /\ leaf_tree f t' (with_z n z') k' /\ P z' k'.
Proof.
  intros f t n k S L H P X. destruct TR as (D & _ & _).
  assert (B : nleb n0 (end_time n) = true) by (apply nleb_true; exact H).
  destruct f as [var c|p c| | | | | | | | | | | |]; cbn [simple_operand leaf_tree] in *; try contradiction.
  - subst t. cbn [compute_rob]. unfold compute_signal. destruct c as [|c]; [lia|]. rewrite B.
    destruct (e_data E) eqn:ED; [congruence|]. rewrite <- ED in *.
    rewrite read_signal_pts by (apply rows_wide; lia).
    destruct (X n0 n0) as (z & t & x & k' & R1 & R2). cbn [leaf_points] in R1. unfold column in R1. rewrite skipn_map in R1.
    unfold column, rows_from. rewrite R1. cbn [bind].
    destruct (R2 x (or_intror eq_refl)) as (z' & T1 & T2 & T3). rewrite T1. cbn [bind].
    destruct (samples z') as [|q r] eqn:SZ; [congruence|]. cbn [deref bind].
    do 4 eexists. split; [reflexivity|]. split; [reflexivity|]. exact T2.
  - destruct L as (v' & -> & EV). cbn [compute_rob]. unfold compute_constant.
    change (match p with None => v' | Some _ => match get_param E p with Some w0 => w0 | None => n0 end end) with (eff E p v').
    rewrite EV, B. destruct (e_data E) eqn:ED; [congruence|]. rewrite <- ED in *.
    rewrite read_constant_pts.
    2:{ eapply Forall_impl; [|apply (rows_wide k 0); lia]. intros r W -> . cbn in W. lia. }
    destruct (X (eff E p c) (eff E p c)) as (z & t & x & k' & R1 & R2). cbn [leaf_points] in R1. unfold level in R1. rewrite skipn_map in R1.
    unfold level, rows_from. rewrite R1. cbn [bind].
    destruct (R2 (eff E p c) (or_introl eq_refl)) as (z' & T1 & T2 & T3). rewrite T1. cbn [bind].
    do 4 eexists. split; [reflexivity|]. split; [|exact T2]. exists (eff E p c). split; [reflexivity|apply eff_eff].
Qed.

Lemma compute_leaf : forall f t n k, simple_operand w f -> leaf_tree f t n k -> 0 <= end_time n ->
  forall P : signal Qc -> nat -> Prop,
  (forall v w, exists z t x k', read_pts LINEAR (end_time n) (nz n) n0 v (skipn k (leaf_points f)) k = Ok (z, t, x, k') /\
     forall w', w' = w \/ w' = x -> exists z', trim_read n z t w' = Ok z' /\ P z' k' /\ samples z' <> []) ->
  exists v t' z' k', compute_rob E t = Ok (v, t') /\ leaf_tree f t' (with_z n z') k' /\ P z' k'.
Proof. rewrite <- LIN. exact compute_leaf_ip. Qed.

Lemma leaf_pass1 : forall f t n s e, simple_operand w f -> leaf_tree f t n 0 -> nz n = empty_signal ->
  start_time n = s -> end_time n = e -> 0 <= e -> s <= e -> s <= last_time (e_data E) ->
  exists v t' n' k', compute_rob E t = Ok (v, t') /\ leaf_tree f t' n' k' /\
    leaf_sig (leaf_points f) s (qmin e (last_time (e_data E))) (nz n') /\ leaf_state (leaf_points f) s e n' k'.
Proof.
  intros f t n s e S L Z Hs He H0 H1 H2.
  destruct (compute_leaf f t n 0 S L ltac:(rewrite He; auto)
    (fun z k => leaf_sig (leaf_points f) s (qmin e (last_time (e_data E))) z /\ leaf_state (leaf_points f) s e (with_z n z) k))
    as (v & t' & z' & k' & C1 & C2 & C3 & C4).
  - intros v w0. destruct (leaf_first (leaf_points f) s e n v w0) as (z & t1 & x & k & R1 & R2); auto.
    + apply points_some; auto.
    + apply points_rising; auto.
    + rewrite points_end; auto.
    + rewrite He. do 4 eexists. split; [exact R1|]. intros w' W. destruct (R2 w' W) as (z' & T1 & T2 & T3).
      rewrite points_end in T2 by auto.
      exists z'. split; [exact T1|]. split; [split; auto|]. apply T3.
  - exists v, t', (with_z n z'), k'. split; [exact C1|]. split; [exact C2|]. split; auto.
Qed.

Lemma leaf_pass2 : forall f t n k s e, simple_operand w f -> leaf_tree f t n k -> leaf_state (leaf_points f) s e n k ->
  0 <= e -> s <= e ->
  exists v t' n' k', compute_rob E t = Ok (v, t') /\ leaf_tree f t' n' k' /\ leaf_state (leaf_points f) s e n' k'.
Proof.
  intros f t n k s e S L ST H0 H1. pose proof (lst_stop _ _ _ _ _ ST) as He.
  destruct (compute_leaf f t n k S L ltac:(rewrite He; auto)
    (fun z k => leaf_state (leaf_points f) s e (with_z n z) k)) as (v & t' & z' & k' & C1 & C2 & C3).
  - intros v w0. destruct (leaf_again _ _ _ _ _ v ST H0 H1) as (z & t1 & x & k' & R1 & R2). rewrite He.
    do 4 eexists. split; [exact R1|]. intros w' _. destruct (R2 w') as (z' & T1 & T2).
    exists z'. split; [exact T1|]. split; [exact T2|]. apply T2.
  - exists v, t', (with_z n z'), k'. auto.
Qed.

End Leaf.
