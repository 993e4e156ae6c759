(** Proofs about drivers, monitors and programs that use them. *)
From Coq Require Import List Bool String QArith Qcanon Lia.
From Verif Require Import Num Base Signal QcTac Robust Transducer Spec StlSpec TreeProof Driver DriverSpec.
Import ListNotations.

(** ** Maps *)
Section Maps.
Context {A : Type}.
Lemma find_assign : forall k v (m : list (string * A)), find k (assign k v m) = Some v.
Proof.
  intros k v m. induction m as [|[k' w] m IH]; cbn [assign find].
  - rewrite String.eqb_refl. reflexivity.
  - destruct (String.eqb k k') eqn:X; cbn [find]; rewrite X; auto.
Qed.
Lemma find_assign_other : forall k k' v (m : list (string * A)), k <> k' -> find k' (assign k v m) = find k' m.
Proof.
  intros k k' v m D. induction m as [|[k2 w] m IH]; cbn [assign find].
  - destruct (String.eqb_spec k' k); congruence.
  - destruct (String.eqb_spec k k2) as [->|X]; cbn [find].
    + destruct (String.eqb_spec k' k2); congruence.
    + destruct (String.eqb k' k2); auto.
Qed.
Lemma find_map : forall (B : Type) (g : A -> B) k m, find k (map (fun p => (fst p, g (snd p))) m) = option_map g (find k m).
Proof. intros B g k m. induction m as [|[k' w] m IH]; cbn [map find fst snd]; auto. destruct (String.eqb k k'); auto. Qed.
Lemma assign_same : forall k v (m : list (string * A)), find k m = Some v -> assign k v m = m.
Proof.
  intros k v m. induction m as [|[k' w] m IH]; cbn [assign find]; [discriminate|]. destruct (String.eqb k k'); intros H; [congruence|].
  rewrite IH; auto.
Qed.
Lemma assign_names : forall k v w (m : list (string * A)), find k m = Some w -> map fst (assign k v m) = map fst m.
Proof.
  intros k v w m. induction m as [|[k' x] m IH]; cbn [assign find]; [discriminate|]. destruct (String.eqb k k'); cbn [map fst]; auto.
  intros H. rewrite IH; auto.
Qed.
End Maps.

Lemma nth_update : forall (A : Type) k (v : A) l, (k < List.length l)%nat -> nth_error (update k v l) k = Some v.
Proof. induction k; destruct l; cbn [List.length update nth_error]; intros; try lia; auto. apply IHk. lia. Qed.
Lemma nth_update_other : forall (A : Type) k k' (v : A) l, k <> k' -> nth_error (update k v l) k' = nth_error l k'.
Proof. induction k; destruct l, k'; cbn [update nth_error]; intros; auto; congruence || auto. Qed.
Lemma nth_app_some : forall (A : Type) k (x : A) l l', nth_error l k = Some x -> nth_error (l ++ l')%list k = Some x.
Proof. intros A k x l l' H. rewrite nth_error_app1; auto. apply nth_error_Some. congruence. Qed.

(** ** Isolation *)
Section Isolation.
Context {T : Type} {N : Num T}.

Lemma m_eval_local : forall S S2 m s e S' m' o, m_eval S m s e = Ok (S', m', o) -> s_M S2 = s_M S ->
  s_M S' = s_M S /\ exists S2', m_eval S2 m s e = Ok (S2', m', o) /\ s_M S2' = s_M S.
Proof.
  intros S S2 m s e S' m' o H HM. unfold m_eval in *. destruct (m_formula m) as [t|].
  - unfold eval_tree in *. cbn [s_sem s_ip s_M] in *. rewrite HM in *.
    destruct (evaluate _ t s e) as [[[[r lo] up] t']| | | |]; cbn [bind] in H; try discriminate H; injection H as <- <- <-; cbn [bind];
      (split; [reflexivity|]; eexists; split; [reflexivity|reflexivity]).
  - injection H as <- <- <-. split; auto. exists S2. auto.
Qed.

Lemma mstep_local : forall S S2 m c S' m' o, mstep S m c = Ok (S', m', o) -> s_M S2 = s_M S ->
  s_M S' = s_M S /\ exists S2', mstep S2 m c = Ok (S2', m', o) /\ s_M S2' = s_M S.
Proof.
  intros S S2 m c S' m' o H HM.
  destruct c; cbn [mstep] in *; try (eapply m_eval_local; eauto; fail);
  repeat match type of H with
  | bind ?r _ = Ok _ => destruct r as [?| | | |]; cbn [bind] in H |- *; try discriminate H
  | (match ?p with Some _ => _ | None => _ end) = Ok _ => destruct p
  end; try discriminate H; injection H as <- <- <-; (split; [reflexivity|]; exists S2; auto).
Qed.

Lemma dstep_local : forall S S2 d c S' d' o, dstep S d c = Ok (S', d', o) -> s_M S2 = s_M S ->
  s_M S' = s_M S /\ exists S2', dstep S2 d c = Ok (S2', d', o) /\ s_M S2' = s_M S.
Proof.
  intros S S2 d c S' d' o H HM.
  destruct c; cbn [dstep] in *;
  try (repeat match type of H with
  | bind ?r _ = Ok _ => destruct r as [?| | | |]; cbn [bind] in H |- *; try discriminate H
  | (match ?p with Some _ => _ | None => _ end) = Ok _ => destruct p
  end; try discriminate H; injection H as <- <- <-; (split; [reflexivity|]; exists S2; auto); fail).
  unfold d_online in *. destruct (d_data d) eqn:D; [injection H as <- <- <-; split; [reflexivity|]; exists S2; auto|].
  destruct (find phi (d_formulas d)); [|injection H as <- <- <-; split; [reflexivity|]; exists S2; auto].
  unfold eval_tree in *. cbn [s_sem s_ip s_M] in *. rewrite HM in *.
  destruct (evaluate _ t t0 t0) as [[[[r lo] up] t']| | | |]; cbn [bind] in H; try discriminate H; injection H as <- <- <-; cbn [bind];
    (split; [reflexivity|]; eexists; split; [reflexivity|reflexivity]).
Qed.

(** A call on some other object leaves monitor [k] and BigM. *)
Lemma step_elsewhere : forall w c w' o k m, step w c = Ok (w', o) -> nth_error (w_monitors w) k = Some m ->
  on_monitor k c = false -> sets_BigM c = false -> assigns_monitor k c = false ->
  nth_error (w_monitors w') k = Some m /\ s_M (w_stat w') = s_M (w_stat w).
Proof.
  intros w c w' o k m H K O B A. destruct c; cbn [step on_monitor sets_BigM assigns_monitor] in *; try discriminate;
  repeat match type of H with
  | bind ?r _ = Ok _ => let X := fresh "X" in destruct r as [?| | | |] eqn:X; cbn [bind] in H; try discriminate H
  | (match ?p with Some _ => _ | None => _ end) = Ok _ => destruct p
  | (match ?p with (_, _) => _ end) = Ok _ => destruct p
  end; try discriminate H; injection H as <- <-; cbn [w_monitors w_stat s_M]; auto using nth_app_some.
  - apply Nat.eqb_neq in O. split; [rewrite nth_update_other; auto|].
    match goal with X : mstep _ _ _ = Ok _ |- _ => apply mstep_local with (S2 := w_stat w) in X; auto; apply X end.
  - split; auto. match goal with X : dstep _ _ _ = Ok _ |- _ => apply dstep_local with (S2 := w_stat w) in X; auto; apply X end.
  - split; auto. apply Nat.eqb_neq in A. destruct (Nat.eqb k0 k'); auto. rewrite nth_update_other; auto.
Qed.

Lemma step_elsewhere_d : forall w c w' o k d, step w c = Ok (w', o) -> nth_error (w_drivers w) k = Some d ->
  on_driver k c = false -> sets_BigM c = false ->
  nth_error (w_drivers w') k = Some d /\ s_M (w_stat w') = s_M (w_stat w).
Proof.
  intros w c w' o k d H K O B. destruct c; cbn [step on_driver sets_BigM] in *; try discriminate;
  repeat match type of H with
  | bind ?r _ = Ok _ => let X := fresh "X" in destruct r as [?| | | |] eqn:X; cbn [bind] in H; try discriminate H
  | (match ?p with Some _ => _ | None => _ end) = Ok _ => destruct p
  | (match ?p with (_, _) => _ end) = Ok _ => destruct p
  end; try discriminate H; injection H as <- <-; cbn [w_drivers w_stat s_M]; auto using nth_app_some.
  - split; auto. match goal with X : mstep _ _ _ = Ok _ |- _ => apply mstep_local with (S2 := w_stat w) in X; auto; apply X end.
  - apply Nat.eqb_neq in O. split; [rewrite nth_update_other; auto|].
    match goal with X : dstep _ _ _ = Ok _ |- _ => apply dstep_local with (S2 := w_stat w) in X; auto; apply X end.
Qed.

(** Monitor [k] on its own. *)
Fixpoint alone (S : statics T) (m : monitor T) (k : nat) (h : list (call T)) : res (monitor T * list (out T)) :=
  match h with
  | nil => Ok (m, [])
  | CMon _ c :: h' =>
      '(S', m', o) <- mstep S m c ;;
      '(m'', os) <- alone S' m' k h' ;;
      Ok (m'', o :: os)
  | _ :: h' => alone S m k h'
  end.
Fixpoint alone_d (S : statics T) (d : driver T) (k : nat) (h : list (call T)) : res (driver T * list (out T)) :=
  match h with
  | nil => Ok (d, [])
  | CDrv _ c :: h' =>
      '(S', d', o) <- dstep S d c ;;
      '(d'', os) <- alone_d S' d' k h' ;;
      Ok (d'', o :: os)
  | _ :: h' => alone_d S d k h'
  end.

Lemma run_alone : forall k h w w' os m S, nth_error (w_monitors w) k = Some m -> spares_monitor k h ->
  run w h = Ok (w', os) -> s_M S = s_M (w_stat w) ->
  exists m', nth_error (w_monitors w') k = Some m' /\ alone S m k (filter (on_monitor k) h) = Ok (m', results (on_monitor k) h os).
Proof.
  intros k. induction h as [|c h IH]; intros w w' os m S K SP R HM; cbn [run] in R.
  - injection R as <- <-. exists m. auto.
  - inversion SP as [|? ? [B A] SP']; subst.
    destruct (step w c) as [[w1 o]| | | |] eqn:ST; cbn [bind] in R; try discriminate R.
    destruct (run w1 h) as [[w2 os']| | | |] eqn:R1; cbn [bind] in R; try discriminate R. injection R as <- <-.
    cbn [filter results]. destruct (on_monitor k c) eqn:O.
    + destruct c; cbn [on_monitor] in O; try discriminate O. apply Nat.eqb_eq in O. subst k0. cbn [step] in ST.
      rewrite K in ST. cbn [need bind] in ST.
      destruct (mstep (w_stat w) m c) as [[[S1 m1] o1]| | | |] eqn:MS; cbn [bind] in ST; try discriminate ST. injection ST as <- <-.
      apply mstep_local with (S2 := S) in MS; auto. destruct MS as (M1 & S2 & MS & M2).
      cbn [alone]. rewrite MS. cbn [bind].
      edestruct IH with (m := m1) (S := S2) as (m' & K' & AL); [|exact SP'|exact R1| |].
      * cbn [w_monitors]. apply nth_update. apply nth_error_Some. congruence.
      * cbn [w_stat]. congruence.
      * exists m'. split; auto. rewrite AL. reflexivity.
    + destruct (step_elsewhere w c w1 o k m ST K O B A) as [K' M'].
      destruct (IH w1 w2 os' m S K' SP' R1) as (m' & K2 & AL); [congruence|]. exists m'. auto.
Qed.

Lemma run_alone_d : forall k h w w' os d S, nth_error (w_drivers w) k = Some d -> spares_driver h ->
  run w h = Ok (w', os) -> s_M S = s_M (w_stat w) ->
  exists d', nth_error (w_drivers w') k = Some d' /\ alone_d S d k (filter (on_driver k) h) = Ok (d', results (on_driver k) h os).
Proof.
  intros k. induction h as [|c h IH]; intros w w' os d S K SP R HM; cbn [run] in R.
  - injection R as <- <-. exists d. auto.
  - inversion SP as [|? ? B SP']; subst.
    destruct (step w c) as [[w1 o]| | | |] eqn:ST; cbn [bind] in R; try discriminate R.
    destruct (run w1 h) as [[w2 os']| | | |] eqn:R1; cbn [bind] in R; try discriminate R. injection R as <- <-.
    cbn [filter results]. destruct (on_driver k c) eqn:O.
    + destruct c; cbn [on_driver] in O; try discriminate O. apply Nat.eqb_eq in O. subst k0. cbn [step] in ST.
      rewrite K in ST. cbn [need bind] in ST.
      destruct (dstep (w_stat w) d c) as [[[S1 m1] o1]| | | |] eqn:MS; cbn [bind] in ST; try discriminate ST. injection ST as <- <-.
      apply dstep_local with (S2 := S) in MS; auto. destruct MS as (M1 & S2 & MS & M2).
      cbn [alone_d]. rewrite MS. cbn [bind].
      edestruct IH with (d := m1) (S := S2) as (m' & K' & AL); [|exact SP'|exact R1| |].
      * cbn [w_drivers]. apply nth_update. apply nth_error_Some. congruence.
      * cbn [w_stat]. congruence.
      * exists m'. split; auto. rewrite AL. reflexivity.
    + destruct (step_elsewhere_d w c w1 o k d ST K O B) as [K' M'].
      destruct (IH w1 w2 os' d S K' SP' R1) as (m' & K2 & AL); [congruence|]. exists m'. auto.
Qed.

(** C28 *)
Lemma monitors_isolated : forall k m w1 w2 h1 h2 w1' w2' os1 os2,
  nth_error (w_monitors w1) k = Some m -> nth_error (w_monitors w2) k = Some m ->
  s_M (w_stat w1) = s_M (w_stat w2) -> spares_monitor k h1 -> spares_monitor k h2 ->
  filter (on_monitor k) h1 = filter (on_monitor k) h2 ->
  run w1 h1 = Ok (w1', os1) -> run w2 h2 = Ok (w2', os2) ->
  results (on_monitor k) h1 os1 = results (on_monitor k) h2 os2 /\
  nth_error (w_monitors w1') k = nth_error (w_monitors w2') k.
Proof.
  intros k m w1 w2 h1 h2 w1' w2' os1 os2 K1 K2 HM S1 S2 F R1 R2.
  destruct (run_alone k h1 w1 w1' os1 m (w_stat w1) K1 S1 R1 eq_refl) as (m1 & N1 & A1).
  destruct (run_alone k h2 w2 w2' os2 m (w_stat w1) K2 S2 R2 HM) as (m2 & N2 & A2).
  rewrite F, A2 in A1. assert (m1 = m2 /\ results (on_monitor k) h1 os1 = results (on_monitor k) h2 os2) as [<- RE] by (split; congruence).
  split; congruence.
Qed.

Lemma drivers_isolated : forall k d w1 w2 h1 h2 w1' w2' os1 os2,
  nth_error (w_drivers w1) k = Some d -> nth_error (w_drivers w2) k = Some d ->
  s_M (w_stat w1) = s_M (w_stat w2) -> spares_driver h1 -> spares_driver h2 ->
  filter (on_driver k) h1 = filter (on_driver k) h2 ->
  run w1 h1 = Ok (w1', os1) -> run w2 h2 = Ok (w2', os2) ->
  results (on_driver k) h1 os1 = results (on_driver k) h2 os2 /\
  nth_error (w_drivers w1') k = nth_error (w_drivers w2') k.
Proof.
  intros k m w1 w2 h1 h2 w1' w2' os1 os2 K1 K2 HM S1 S2 F R1 R2.
  destruct (run_alone_d k h1 w1 w1' os1 m (w_stat w1) K1 S1 R1 eq_refl) as (m1 & N1 & A1).
  destruct (run_alone_d k h2 w2 w2' os2 m (w_stat w1) K2 S2 R2 HM) as (m2 & N2 & A2).
  rewrite F, A2 in A1. assert (m1 = m2 /\ results (on_driver k) h1 os1 = results (on_driver k) h2 os2) as [<- RE] by (split; congruence).
  split; congruence.
Qed.

End Isolation.

(** ** Objects that behave alike *)
Section Alike.
Context {T : Type} {N : Num T}.

Definition alike_tree (t t' : option (tree T)) : Prop := option_map skel t = option_map skel t'.
Definition alike (m m' : monitor T) : Prop :=
  m_data m = m_data m' /\ m_params m = m_params m' /\ m_signals m = m_signals m' /\
  m_rob m = m_rob m' /\ m_low m = m_low m' /\ m_up m = m_up m' /\ m_start m = m_start m' /\ m_end m = m_end m' /\
  alike_tree (m_formula m) (m_formula m') /\ m_sem m = m_sem m' /\ m_ip m = m_ip m'.
Definition skels (l : list (string * tree T)) : list (string * fml T) := map (fun p => (fst p, skel (snd p))) l.
Definition alike_d (d d' : driver T) : Prop :=
  d_data d = d_data d' /\ d_params d = d_params d' /\ d_signals d = d_signals d' /\
  skels (d_formulas d) = skels (d_formulas d') /\ d_sem d = d_sem d' /\ d_ip d = d_ip d'.

Definition agree {A : Type} (P : A -> A -> Prop) (r r' : res (statics T * A * out T)) : Prop :=
  match r, r' with
  | Ok (S1, a, o), Ok (S2, a', o') => S1 = S2 /\ P a a' /\ o = o'
  | UB, UB | NonFinite, NonFinite | OutOfFuel, OutOfFuel | Exn, Exn => True
  | _, _ => False
  end.

Lemma eval_tree_alike : forall S sem ip data params t t' s e, skel t = skel t' ->
  match eval_tree S sem ip data params t s e, eval_tree S sem ip data params t' s e with
  | inl (Ok (S1, r1, t1)), inl (Ok (S2, r2, t2)) => S1 = S2 /\ r1 = r2 /\ skel t1 = skel t2 /\ skel t1 = skel t
  | inl UB, inl UB | inl NonFinite, inl NonFinite | inl OutOfFuel, inl OutOfFuel => True
  | inr (S1, t1), inr (S2, t2) => S1 = S2 /\ skel t1 = skel t2
  | _, _ => False
  end.
Proof.
  intros S sem ip data params t t' s e H. unfold eval_tree. cbn [s_sem s_ip s_M].
  remember (mkEnv sem ip (s_M S) data params) as E. pose proof (evaluate_skel E t t' s e H) as NE.
  destruct (evaluate E t s e) as [[[[r lo] up] t1]| | | |] eqn:X; destruct (evaluate E t' s e) as [[[[r' lo'] up'] t2]| | | |] eqn:Y;
    cbn [numbers bind] in NE; try discriminate NE; auto.
  - apply skel_evaluate in X. apply skel_evaluate in Y. rewrite skel_prepare in X, Y.
    repeat split; congruence.
  - rewrite !skel_prepare. auto.
Qed.

Lemma m_eval_alike : forall S m m' s e, alike m m' -> agree alike (m_eval S m s e) (m_eval S m' s e).
Proof.
  intros S m m' s e A. destruct A as (A1 & A2 & A3 & A4 & A5 & A6 & A7 & A8 & A9 & A10 & A11). unfold m_eval, alike_tree in *.
  destruct (m_formula m) as [t|] eqn:F, (m_formula m') as [t'|] eqn:F'; cbn [option_map] in A9; try discriminate A9.
  - rewrite <- A1, <- A2, <- A10, <- A11. assert (K : skel t = skel t') by congruence.
    pose proof (eval_tree_alike S (m_sem m) (m_ip m) (m_data m) (m_params m) t t' s e K) as X.
    destruct (eval_tree S (m_sem m) (m_ip m) (m_data m) (m_params m) t s e) as [[[[S1 [[r lo] up]] t1]| | | |]|[S1 t1]];
    destruct (eval_tree S (m_sem m) (m_ip m) (m_data m) (m_params m) t' s e) as [[[[S2 [[r2 lo2] up2]] t2]| | | |]|[S2 t2]]; try contradiction; cbn [bind agree]; auto.
    + destruct X as (<- & R & K1 & _). assert (r = r2 /\ lo = lo2 /\ up = up2) as (<- & <- & <-) by (repeat split; congruence). split; auto. split; auto.
      unfold alike, m_with_rob, alike_tree; cbn [m_data m_params m_signals m_rob m_low m_up m_start m_end m_formula m_sem m_ip option_map].
      repeat match goal with |- _ /\ _ => split end; congruence.
    + destruct X as (<- & K1). split; auto. split; auto.
      unfold alike, m_with_rob, alike_tree; cbn [m_data m_params m_signals m_rob m_low m_up m_start m_end m_formula m_sem m_ip option_map].
      repeat match goal with |- _ /\ _ => split end; congruence.
  - cbn [agree]. split; auto. split; [|congruence]. unfold alike, alike_tree. rewrite F, F'. repeat match goal with |- _ /\ _ => split end; auto.
Qed.

Lemma mstep_alike : forall S m m' c, alike m m' -> gets_signal c = false -> agree alike (mstep S m c) (mstep S m' c).
Proof.
  intros S m m' c A G.
  assert (AA : alike m m') by exact A. destruct A as (A1 & A2 & A3 & A4 & A5 & A6 & A7 & A8 & A9 & A10 & A11).
  destruct c; cbn [mstep gets_signal] in *; try discriminate G;
    rewrite <- ?A1, <- ?A2, <- ?A3, <- ?A4, <- ?A5, <- ?A6, <- ?A7, <- ?A8, <- ?A10, <- ?A11;
    try (apply m_eval_alike; exact AA; fail);
    repeat match goal with
    | |- context [bind ?r _] => destruct r as [?| | | |]; cbn [bind]
    | |- context [match ?p with Some _ => _ | None => _ end] => destruct p
    end; cbn [agree]; auto; (split; [reflexivity|]; split; [|reflexivity]);
    unfold alike, m_with_data, m_with_params, m_with_times, m_with_sem, m_with_ip;
    cbn [m_data m_params m_signals m_rob m_low m_up m_start m_end m_formula m_sem m_ip];
    repeat match goal with |- _ /\ _ => split end; auto.
Qed.

Lemma skels_find : forall l l' k, skels l = skels l' -> option_map skel (find k l) = option_map skel (find k l').
Proof. intros l l' k H. unfold skels in H. rewrite <- !find_map. rewrite H. reflexivity. Qed.
Lemma skels_assign : forall k t t' l l', skel t = skel t' -> skels l = skels l' -> skels (assign k t l) = skels (assign k t' l').
Proof.
  intros k t t' l l' H. revert l'. unfold skels. induction l as [|[a b] l IH]; destruct l' as [|[a' b'] l']; cbn [map assign fst snd]; intros E;
    try discriminate E; [congruence|].
  assert (a = a' /\ skel b = skel b' /\ map (fun p : string * tree T => (fst p, skel (snd p))) l = map (fun p : string * tree T => (fst p, skel (snd p))) l') as (<- & E1 & E2)
    by (repeat split; congruence).
  destruct (String.eqb k a); cbn [map fst snd]; [congruence|]. rewrite (IH l'); congruence.
Qed.
Lemma skels_set_param : forall k v l, k <> EmptyString -> skels (map (fun p => (fst p, tree_set_param k v (snd p))) l) = skels l.
Proof.
  intros k v l D. unfold skels. rewrite map_map. cbn [fst snd]. apply map_ext. intros [a b]. cbn [fst snd]. rewrite skel_set_param; auto.
Qed.
(** The name "" rewrites numeric constants: the effect depends on the formula only. *)
Lemma set_param_skel : forall k v (t t' : tree T), skel t = skel t' -> skel (tree_set_param k v t) = skel (tree_set_param k v t').
Proof.
  intros k v. induction t; destruct t'; cbn [skel tree_set_param]; intros H; try discriminate H; try (injection H; intros; f_equal; auto; fail); auto.
  destruct p as [p|], p0 as [p0|]; try discriminate H; [exact H|]. destruct (String.eqb k ""); auto.
Qed.
Lemma skels_set_param_alike : forall k v l l', skels l = skels l' ->
  skels (map (fun p => (fst p, tree_set_param k v (snd p))) l) = skels (map (fun p => (fst p, tree_set_param k v (snd p))) l').
Proof.
  intros k v l. unfold skels. induction l as [|[a b] l IH]; destruct l' as [|[a' b'] l']; cbn [map fst snd]; intros E; try discriminate E; auto.
  assert (a = a' /\ skel b = skel b' /\ map (fun p : string * tree T => (fst p, skel (snd p))) l = map (fun p : string * tree T => (fst p, skel (snd p))) l') as (<- & E1 & E2)
    by (repeat split; congruence).
  rewrite (IH l' E2). rewrite (set_param_skel k v b b' E1). reflexivity.
Qed.

Lemma dstep_alike : forall S d d' c, alike_d d d' -> agree alike_d (dstep S d c) (dstep S d' c).
Proof.
  intros S d d' c A. assert (AA : alike_d d d') by exact A. destruct A as (A1 & A2 & A3 & A4 & A5 & A6).
  destruct c; cbn [dstep]; rewrite <- ?A1, <- ?A2, <- ?A3, <- ?A5, <- ?A6;
  try (repeat match goal with
    | |- context [bind ?r _] => destruct r as [?| | | |]; cbn [bind]
    | |- context [match ?p with Some _ => _ | None => _ end] => destruct p
    end; cbn [agree]; auto; (split; [reflexivity|]; split; [|reflexivity]);
    unfold alike_d, d_with_data, d_with_formulas;
    cbn [d_data d_params d_signals d_formulas d_sem d_ip];
    repeat match goal with |- _ /\ _ => split end; auto using skels_set_param_alike, skels_assign; fail).
  unfold d_online. rewrite <- A1. destruct (d_data d) as [|r0 data] eqn:D; [cbn [agree]; auto|].
  pose proof (skels_find _ _ phi A4) as F. destruct (find phi (d_formulas d)) as [t|], (find phi (d_formulas d')) as [t'|]; cbn [option_map] in F; try discriminate F; [|cbn [agree]; auto].
  assert (K : skel t = skel t') by congruence. rewrite <- A2, <- A5, <- A6.
  pose proof (eval_tree_alike S (d_sem d) (d_ip d) (r0 :: data) (d_params d) t t' t0 t0 K) as X.
  destruct (eval_tree S (d_sem d) (d_ip d) (r0 :: data) (d_params d) t t0 t0) as [[[[S1 [[r lo] up]] t1]| | | |]|[S1 t1]];
  destruct (eval_tree S (d_sem d) (d_ip d) (r0 :: data) (d_params d) t' t0 t0) as [[[[S2 [[r2 lo2] up2]] t2]| | | |]|[S2 t2]]; try contradiction; cbn [bind agree]; auto.
  - destruct X as (<- & R & K1 & _). split; auto. split; [|congruence].
    unfold alike_d, d_with_formulas; cbn [d_data d_params d_signals d_formulas d_sem d_ip].
    repeat match goal with |- _ /\ _ => split end; auto; try congruence. apply skels_assign; auto.
  - destruct X as (<- & K1). split; auto. split; auto.
    unfold alike_d, d_with_formulas; cbn [d_data d_params d_signals d_formulas d_sem d_ip].
    repeat match goal with |- _ /\ _ => split end; auto; try congruence. apply skels_assign; auto.
Qed.

Lemma alike_copy : forall m, alike m (copy_monitor m).
Proof.
  intros m. unfold alike, copy_monitor, alike_tree. cbn [m_data m_params m_signals m_rob m_low m_up m_start m_end m_formula m_sem m_ip].
  repeat match goal with |- _ /\ _ => split end; auto. destruct (m_formula m); cbn [option_map]; auto. rewrite skel_clone. reflexivity.
Qed.
Lemma alike_copy_d : forall d, alike_d d (copy_driver d).
Proof.
  intros d. unfold alike_d, copy_driver. cbn [d_data d_params d_signals d_formulas d_sem d_ip].
  repeat match goal with |- _ /\ _ => split end; auto. unfold skels. rewrite map_map. apply map_ext. intros [a b]. cbn [fst snd]. rewrite skel_clone. reflexivity.
Qed.

(** Two monitors, in two programs, that are alike give the same results. *)
Lemma run_monitor_alike : forall cs w1 w2 k1 k2 m1 m2, nth_error (w_monitors w1) k1 = Some m1 -> nth_error (w_monitors w2) k2 = Some m2 ->
  w_stat w1 = w_stat w2 -> alike m1 m2 -> Forall (fun c => gets_signal c = false) cs ->
  outs (run w1 (map (CMon k1) cs)) = outs (run w2 (map (CMon k2) cs)).
Proof.
  induction cs as [|c cs IH]; intros w1 w2 k1 k2 m1 m2 K1 K2 ST A G; cbn [map run]; [reflexivity|].
  inversion G; subst. cbn [step]. rewrite K1, K2, ST. cbn [need bind].
  pose proof (mstep_alike (w_stat w2) m1 m2 c A ltac:(auto)) as X.
  destruct (mstep (w_stat w2) m1 c) as [[[S1 n1] o1]| | | |], (mstep (w_stat w2) m2 c) as [[[S2 n2] o2]| | | |]; cbn [agree] in X; try contradiction; cbn [bind]; auto.
  destruct X as (<- & A' & <-).
  specialize (IH (mkW S1 (w_drivers w1) (update k1 n1 (w_monitors w1))) (mkW S1 (w_drivers w2) (update k2 n2 (w_monitors w2))) k1 k2 n1 n2).
  cbn [w_monitors w_stat] in IH.
  assert (IH' : outs (run (mkW S1 (w_drivers w1) (update k1 n1 (w_monitors w1))) (map (CMon k1) cs)) =
                outs (run (mkW S1 (w_drivers w2) (update k2 n2 (w_monitors w2))) (map (CMon k2) cs))).
  { apply IH; auto; apply nth_update; apply nth_error_Some; congruence. }
  destruct (run (mkW S1 (w_drivers w1) (update k1 n1 (w_monitors w1))) (map (CMon k1) cs)) as [[v1 os1]| | | |],
           (run (mkW S1 (w_drivers w2) (update k2 n2 (w_monitors w2))) (map (CMon k2) cs)) as [[v2 os2]| | | |]; cbn [outs bind] in IH' |- *; try discriminate IH'; congruence.
Qed.

Lemma run_driver_alike : forall cs w1 w2 k1 k2 m1 m2, nth_error (w_drivers w1) k1 = Some m1 -> nth_error (w_drivers w2) k2 = Some m2 ->
  w_stat w1 = w_stat w2 -> alike_d m1 m2 ->
  outs (run w1 (map (CDrv k1) cs)) = outs (run w2 (map (CDrv k2) cs)).
Proof.
  induction cs as [|c cs IH]; intros w1 w2 k1 k2 m1 m2 K1 K2 ST A; cbn [map run]; [reflexivity|].
  cbn [step]. rewrite K1, K2, ST. cbn [need bind].
  pose proof (dstep_alike (w_stat w2) m1 m2 c A) as X.
  destruct (dstep (w_stat w2) m1 c) as [[[S1 n1] o1]| | | |], (dstep (w_stat w2) m2 c) as [[[S2 n2] o2]| | | |]; cbn [agree] in X; try contradiction; cbn [bind]; auto.
  destruct X as (<- & A' & <-).
  specialize (IH (mkW S1 (update k1 n1 (w_drivers w1)) (w_monitors w1)) (mkW S1 (update k2 n2 (w_drivers w2)) (w_monitors w2)) k1 k2 n1 n2).
  cbn [w_drivers w_stat] in IH.
  assert (IH' : outs (run (mkW S1 (update k1 n1 (w_drivers w1)) (w_monitors w1)) (map (CDrv k1) cs)) =
                outs (run (mkW S1 (update k2 n2 (w_drivers w2)) (w_monitors w2)) (map (CDrv k2) cs))).
  { apply IH; auto; apply nth_update; apply nth_error_Some; congruence. }
  destruct (run (mkW S1 (update k1 n1 (w_drivers w1)) (w_monitors w1)) (map (CDrv k1) cs)) as [[v1 os1]| | | |],
           (run (mkW S1 (update k2 n2 (w_drivers w2)) (w_monitors w2)) (map (CDrv k2) cs)) as [[v2 os2]| | | |]; cbn [outs bind] in IH' |- *; try discriminate IH'; congruence.
Qed.

(** C44 *)
Lemma copied_monitor : forall w k k' m cs, nth_error (w_monitors w) k = Some m -> nth_error (w_monitors w) k' = Some (copy_monitor m) ->
  Forall (fun c => gets_signal c = false) cs ->
  outs (run w (map (CMon k) cs)) = outs (run w (map (CMon k') cs)).
Proof. intros w k k' m cs K K' G. eapply run_monitor_alike; eauto. apply alike_copy. Qed.
Lemma copied_driver : forall w k k' d cs, nth_error (w_drivers w) k = Some d -> nth_error (w_drivers w) k' = Some (copy_driver d) ->
  outs (run w (map (CDrv k) cs)) = outs (run w (map (CDrv k') cs)).
Proof. intros w k k' d cs K K'. eapply run_driver_alike; eauto. apply alike_copy_d. Qed.

(** C29, driver: setting a name that is not a parameter. *)
Lemma unknown_ignored : forall S d k v, find k (d_params d) = None -> k <> EmptyString ->
  exists d', dstep S d (DSetParam k v) = Ok (S, d', ODone) /\
    forall w i cs, nth_error (w_drivers w) i = Some d ->
      outs (run w (map (CDrv i) cs)) = outs (run (mkW (w_stat w) (update i d' (w_drivers w)) (w_monitors w)) (map (CDrv i) cs)).
Proof.
  intros S d k v F D. cbn [dstep]. eexists. split; [reflexivity|]. intros w i cs K.
  eapply run_driver_alike; [exact K| | |].
  - cbn [w_drivers]. apply nth_update. apply nth_error_Some. congruence.
  - reflexivity.
  - unfold alike_d. cbn [d_data d_params d_signals d_formulas d_sem d_ip]. unfold driver_set_param. rewrite F.
    repeat match goal with |- _ /\ _ => split end; auto. rewrite skels_set_param; auto.
Qed.

(** C42 *)
Lemma monitor_like_driver : forall S d phi t, d_data d <> [] -> find phi (d_formulas d) <> None ->
  match dstep S d (DOnlineRob phi t), mstep S (get_monitor S d phi) (MEvalAt t) with
  | Ok (S1, _, o1), Ok (S2, m', o2) =>
      S1 = S2 /\ (o1 = OThrow /\ o2 = OThrow \/ exists r, o1 = OVec [r; m_low m'; m_up m'] /\ o2 = ONum r /\ m_rob m' = r)
  | UB, UB | NonFinite, NonFinite | OutOfFuel, OutOfFuel => True
  | _, _ => False
  end.
Proof.
  intros S d phi t D F. cbn [dstep mstep]. unfold d_online, m_eval, get_monitor.
  destruct (d_data d) as [|r0 data] eqn:DD; [congruence|]. destruct (find phi (d_formulas d)) as [x|]; [|congruence].
  cbn [m_data m_params m_formula m_sem m_ip].
  pose proof (eval_tree_alike S (d_sem d) (d_ip d) (r0 :: data) (d_params d) x (clone x) t t) as X. rewrite skel_clone in X. specialize (X eq_refl).
  destruct (eval_tree S (d_sem d) (d_ip d) (r0 :: data) (d_params d) x t t) as [[[[S1 [[r lo] up]] t1]| | | |]|[S1 t1]];
  destruct (eval_tree S (d_sem d) (d_ip d) (r0 :: data) (d_params d) (clone x) t t) as [[[[S2 [[r2 lo2] up2]] t2]| | | |]|[S2 t2]]; try contradiction; cbn [bind]; auto.
  - destruct X as (<- & R & _). split; auto. right. exists r2. unfold m_with_rob. cbn [m_low m_up m_rob]. repeat split; congruence.
  - destruct X as (<- & _). split; auto.
Qed.

(** C41 *)
Lemma online_nothing : forall S d phi t, d_data d = [] \/ find phi (d_formulas d) = None ->
  dstep S d (DOnlineRob phi t) = Ok (S, d, OVec []).
Proof.
  intros S d phi t [D|F]; cbn [dstep]; unfold d_online; [rewrite D; reflexivity|]. rewrite F. destruct (d_data d); reflexivity.
Qed.

(** Parameters stay until they are set. *)
Lemma m_eval_params : forall S m s e S' m' o, m_eval S m s e = Ok (S', m', o) -> m_params m' = m_params m.
Proof.
  intros S m s e S' m' o H. unfold m_eval in H. destruct (m_formula m) as [t|]; [|injection H as <- <- <-; reflexivity].
  destruct (eval_tree S (m_sem m) (m_ip m) (m_data m) (m_params m) t s e) as [[[[S1 [[r lo] up]] t1]| | | |]|[S1 t1]]; cbn [bind] in H; try discriminate H;
    injection H as <- <- <-; reflexivity.
Qed.
Lemma mstep_keeps_param : forall S m c S' m' o k, mstep S m c = Ok (S', m', o) -> m_touches k c = false ->
  find k (m_params m') = find k (m_params m).
Proof.
  intros S m c S' m' o k H C. destruct c; cbn [mstep m_touches] in *; try (apply m_eval_params in H; congruence);
  repeat match type of H with
  | bind ?r _ = Ok _ => destruct r as [?| | | |]; cbn [bind] in H; try discriminate H
  | (match ?p with Some _ => _ | None => _ end) = _ => let X := fresh "X" in destruct p eqn:X
  end; try discriminate H; injection H as <- <- <-; try reflexivity.
  cbn [m_with_params m_params]. unfold monitor_set_param in X. destruct (find k0 (m_params m)) eqn:Y; [|discriminate X].
  assert (l = if neqb v t then m_params m else assign k0 v (m_params m)) as -> by congruence.
  destruct (neqb v t); auto. apply find_assign_other. destruct (String.eqb_spec k0 k); congruence.
Qed.

Lemma d_online_params : forall S d phi t S' d' o, d_online S d phi t = Ok (S', d', o) -> d_params d' = d_params d /\ d_data d' = d_data d.
Proof.
  intros S m s e S' m' o H. unfold d_online in H. destruct (d_data m) eqn:D; [injection H as <- <- <-; auto|].
  destruct (find s (d_formulas m)) as [t|]; [|injection H as <- <- <-; auto].
  destruct (eval_tree S (d_sem m) (d_ip m) (l :: l0) (d_params m) t e e) as [[[[S1 [[r lo] up]] t1]| | | |]|[S1 t1]]; cbn [bind] in H; try discriminate H;
    injection H as <- <- <-; cbn [d_with_formulas d_params d_data]; auto.
Qed.
Lemma dstep_keeps_param : forall S d c S' d' o k, dstep S d c = Ok (S', d', o) -> d_touches k c = false ->
  find k (d_params d') = find k (d_params d).
Proof.
  intros S d c S' d' o k H C. destruct c; cbn [dstep d_touches] in *; try discriminate C; try (apply d_online_params in H; destruct H; congruence);
  repeat match type of H with
  | bind ?r _ = Ok _ => destruct r as [?| | | |]; cbn [bind] in H; try discriminate H
  | (match ?p with Some _ => _ | None => _ end) = _ => let X := fresh "X" in destruct p eqn:X
  end; try discriminate H; injection H as <- <- <-; try reflexivity; cbn [d_params].
  - unfold driver_set_param. destruct (find k0 (d_params d)); auto. apply find_assign_other. destruct (String.eqb_spec k0 k); congruence.
  - apply find_assign_other. destruct (String.eqb_spec k0 k); congruence.
Qed.

(** C29: after any calls that do not set [k], on any object of the program. *)
Lemma run_keeps_m_param : forall h w w' os i m k, run w h = Ok (w', os) -> nth_error (w_monitors w) i = Some m ->
  Forall (fun c => assigns_monitor i c = false /\ match c with CMon i' c => Nat.eqb i' i && m_touches k c = false | _ => True end) h ->
  exists m', nth_error (w_monitors w') i = Some m' /\ find k (m_params m') = find k (m_params m).
Proof.
  induction h as [|c h IH]; intros w w' os i m k R K F; cbn [run] in R.
  - injection R as <- <-. exists m. auto.
  - inversion F as [|? ? [A C] F']; subst.
    destruct (step w c) as [[w1 o]| | | |] eqn:ST; cbn [bind] in R; try discriminate R.
    destruct (run w1 h) as [[w2 os']| | | |] eqn:R1; cbn [bind] in R; try discriminate R. injection R as <- <-.
    assert (exists m1, nth_error (w_monitors w1) i = Some m1 /\ find k (m_params m1) = find k (m_params m)) as (m1 & K1 & P1).
    { destruct c; cbn [step assigns_monitor] in *;
      repeat match type of ST with
      | bind ?r _ = Ok _ => let X := fresh "X" in destruct r as [?| | | |] eqn:X; cbn [bind] in ST; try discriminate ST
      | (match ?p with Some _ => _ | None => _ end) = Ok _ => destruct p
      | (match ?p with (_, _) => _ end) = Ok _ => destruct p
      end; try discriminate ST; injection ST as <- <-; cbn [w_monitors]; try (exists m; auto using nth_app_some; fail).
      - destruct (Nat.eqb_spec k0 i) as [->|D].
        + rewrite K in X. cbn [need] in X. assert (a = m) as -> by congruence. cbn [andb] in C.
          exists m0. split; [apply nth_update; apply nth_error_Some; congruence|]. eapply mstep_keeps_param; eauto.
        + exists m. rewrite nth_update_other; auto.
      - exists m. split; auto. apply Nat.eqb_neq in A. destruct (Nat.eqb k0 k'); auto. rewrite nth_update_other; auto. }
    destruct (IH w1 w2 os' i m1 k R1 K1 F') as (m' & K' & P'). exists m'. split; congruence.
Qed.
Lemma run_keeps_d_param : forall h w w' os i d k, run w h = Ok (w', os) -> nth_error (w_drivers w) i = Some d ->
  Forall (fun c => match c with CDrv i' c => Nat.eqb i' i && d_touches k c = false | _ => True end) h ->
  exists d', nth_error (w_drivers w') i = Some d' /\ find k (d_params d') = find k (d_params d).
Proof.
  induction h as [|c h IH]; intros w w' os i m k R K F; cbn [run] in R.
  - injection R as <- <-. exists m. auto.
  - inversion F as [|? ? C F']; subst.
    destruct (step w c) as [[w1 o]| | | |] eqn:ST; cbn [bind] in R; try discriminate R.
    destruct (run w1 h) as [[w2 os']| | | |] eqn:R1; cbn [bind] in R; try discriminate R. injection R as <- <-.
    assert (exists m1, nth_error (w_drivers w1) i = Some m1 /\ find k (d_params m1) = find k (d_params m)) as (m1 & K1 & P1).
    { destruct c; cbn [step] in *;
      repeat match type of ST with
      | bind ?r _ = Ok _ => let X := fresh "X" in destruct r as [?| | | |] eqn:X; cbn [bind] in ST; try discriminate ST
      | (match ?p with Some _ => _ | None => _ end) = Ok _ => destruct p
      | (match ?p with (_, _) => _ end) = Ok _ => destruct p
      end; try discriminate ST; injection ST as <- <-; cbn [w_drivers]; try (exists m; auto using nth_app_some; fail).
      destruct (Nat.eqb_spec k0 i) as [->|D].
      + rewrite K in X. cbn [need] in X. assert (a = m) as -> by congruence. cbn [andb] in C.
        exists d. split; [apply nth_update; apply nth_error_Some; congruence|]. eapply dstep_keeps_param; eauto.
      + exists m. rewrite nth_update_other; auto. }
    destruct (IH w1 w2 os' i m1 k R1 K1 F') as (m' & K' & P'). exists m'. split; congruence.
Qed.

(** C43 *)
Lemma semantics_read : forall (S : statics T) m s,
  (In s ["SPACE"; "LEFT_TIME"; "RIGHT_TIME"]%string -> exists m', mstep S m (MSetSemantics s) = Ok (S, m', ODone) /\
      mstep S m' MGetSemantics = Ok (S, m', OText s) /\ mstep S m' MGetInterpol = Ok (S, m', OText (show_interpol (m_ip m)))) /\
  (~ In s ["SPACE"; "LEFT_TIME"; "RIGHT_TIME"]%string -> mstep S m (MSetSemantics s) = Ok (S, m, OThrow)).
Proof.
  intros S m s. cbn [mstep]. unfold read_semantics.
  destruct (String.eqb_spec s "SPACE") as [->|D1]; [split; [intros _; eexists; repeat split; reflexivity|intros F; exfalso; apply F; cbn [In]; auto]|].
  destruct (String.eqb_spec s "LEFT_TIME") as [->|D2]; [split; [intros _; eexists; repeat split; reflexivity|intros F; exfalso; apply F; cbn [In]; auto]|].
  destruct (String.eqb_spec s "RIGHT_TIME") as [->|D3]; [split; [intros _; eexists; repeat split; reflexivity|intros F; exfalso; apply F; cbn [In]; auto]|].
  split; [cbn [In]; intuition congruence|reflexivity].
Qed.

End Alike.

(** ** Samples *)
Section Samples.

Lemma rising_last : forall data r, Forall (fun r => r <> []) (data ++ [r]) -> rising (column (data ++ [r])%list 0) ->
  Forall (fun r' => row_time r' < row_time r)%Qc data.
Proof.
  induction data as [|a data IH]; intros r NE R; [constructor|]. cbn [app column map rising] in R. destruct R as [F R].
  constructor.
  - rewrite map_app in F. apply Forall_app in F. destruct F as [_ F]. inversion F; subst. assumption.
  - apply IH; [inversion NE; assumption|exact R].
Qed.
Lemma rising_add : forall data s, rising (column data 0) -> Forall (fun r => row_time r < row_time s)%Qc data ->
  rising (column (data ++ [s])%list 0).
Proof.
  induction data as [|a data IH]; intros s R F; cbn [app column map rising] in *.
  - repeat constructor.
  - destruct R as [R1 R]. inversion F; subst. split; [|apply IH; auto]. rewrite map_app. apply Forall_app. split; auto.
    repeat constructor. assumption.
Qed.

Lemma add_sample_spec : forall data n s, well_timed data ->
  (fits data n s -> add_sample data n s = Ok (Some (data ++ [s])%list)) /\
  (~ fits data n s -> add_sample data n s = Ok None).
Proof.
  intros data n s [NE R]. unfold add_sample, accepts, fits.
  destruct (Nat.eqb_spec (List.length s) (n + 1)) as [L|L]; cbn [negb bind].
  2: { split; [intros [L' _]; lia|reflexivity]. }
  destruct s as [|t s]; [cbn [List.length] in L; lia|].
  destruct data as [|r0 data0].
  { cbn [bind]. split; [reflexivity|]. intros F. exfalso. apply F. split; [cbn [List.length] in *; lia|constructor]. }
  destruct (exists_last (l := r0 :: data0)) as (data & r & E); [discriminate|]. rewrite E in *. clear E r0 data0.
  rewrite last_last.
  pose proof (rising_last data r NE R) as RL.
  apply Forall_app in NE. destruct NE as [NE NEr]. inversion NEr; subst. destruct r as [|t' r]; [congruence|].
  replace (match (data ++ [t' :: r])%list with [] => Ok true | _ :: _ => Ok (negb (nleb t t')) end) with (Ok (negb (nleb t t'))) by (destruct data; reflexivity).
  cbn [bind]. destruct (nleb t t') eqn:LT; cbn [negb]; [apply nleb_true in LT; rename LT into LE|apply nleb_false in LT]; cycle 1.
  - split; [reflexivity|]. intros F. exfalso. apply F. split; [cbn [List.length] in *; lia|].
    apply Forall_app. split; [|repeat constructor; exact LT].
    eapply Forall_impl; [|exact RL]. cbn beta. intros a Ha. change (row_time (t' :: r)) with t' in Ha. change (row_time (t :: s)) with t. eapply Qclt_trans; eauto.
  - split; [|reflexivity]. intros [_ F]. exfalso. apply Forall_app in F. destruct F as [_ F]. inversion F; subst.
    change (t' < t)%Qc in H3. apply Qcle_not_lt in LE. contradiction.
Qed.

Lemma well_timed_add : forall data n s, well_timed data -> fits data n s -> well_timed (data ++ [s])%list.
Proof.
  intros data n s [NE R] [L F]. split.
  - apply Forall_app. split; auto. repeat constructor. intros ->. discriminate L.
  - apply rising_add; auto.
Qed.

Lemma m_eval_data : forall S m s e S' (m' : monitor Qc) o, m_eval S m s e = Ok (S', m', o) -> m_data m' = m_data m.
Proof.
  intros S m s e S' m' o H. unfold m_eval in H. destruct (m_formula m) as [t|]; [|injection H as <- <- <-; reflexivity].
  destruct (eval_tree S (m_sem m) (m_ip m) (m_data m) (m_params m) t s e) as [[[[S1 [[r lo] up]] t1]| | | |]|[S1 t1]]; cbn [bind] in H; try discriminate H;
    injection H as <- <- <-; reflexivity.
Qed.

Definition fits_dec : forall data n s, fits data n s \/ ~ fits data n s.
Proof.
  intros data n s. unfold fits. destruct (Nat.eq_dec (List.length s) (S n)) as [L|L]; [|right; intros [X _]; contradiction].
  destruct (Forall_dec (fun r => row_time r < row_time s)%Qc) with (l := data) as [F|F]; [|left; auto|right; intros [_ X]; contradiction].
  intros r. destruct (Qclt_le_dec (row_time r) (row_time s)); [left; auto|right]. apply Qcle_not_lt. auto.
Qed.

Lemma mstep_timed : forall S m c S' m' o, well_timed (m_data m) -> sets_data c = false -> mstep S m c = Ok (S', m', o) -> well_timed (m_data m').
Proof.
  intros S m c S' m' o W D H. destruct c; cbn [mstep sets_data] in *; try discriminate D; try (apply m_eval_data in H; rewrite H; exact W).
  { destruct (add_sample_spec (m_data m) (List.length (m_signals m)) s W) as [A B].
    destruct (fits_dec (m_data m) (List.length (m_signals m)) s) as [F|F]; [rewrite A in H by auto|rewrite B in H by auto]; cbn [bind] in H; injection H as <- <- <-; auto.
    cbn [m_with_data m_data]. eapply well_timed_add; eauto. }
  all: repeat match type of H with
  | (match ?p with Some _ => _ | None => _ end) = _ => let X := fresh "X" in destruct p eqn:X
  end; try discriminate H; injection H as <- <- <-; try exact W.
  cbn [m_with_data m_data]. split; constructor.
Qed.
Lemma dstep_timed : forall S d c S' d' o, well_timed (d_data d) -> d_sets_data c = false -> dstep S d c = Ok (S', d', o) -> well_timed (d_data d').
Proof.
  intros S m c S' m' o W D H. destruct c; cbn [dstep d_sets_data] in *; try discriminate D; try (apply d_online_params in H; destruct H as [_ H]; rewrite H; exact W).
  { destruct (add_sample_spec (d_data m) (List.length (d_signals m)) s W) as [A B].
    destruct (fits_dec (d_data m) (List.length (d_signals m)) s) as [F|F]; [rewrite A in H by auto|rewrite B in H by auto]; cbn [bind] in H; injection H as <- <- <-; auto.
    cbn [d_with_data d_data]. eapply well_timed_add; eauto. }
  all: repeat match type of H with
  | (match ?p with Some _ => _ | None => _ end) = _ => let X := fresh "X" in destruct p eqn:X
  end; try discriminate H; injection H as <- <- <-; exact W.
Qed.

Lemma update_forall : forall (A : Type) (P : A -> Prop) k v l, Forall P l -> P v -> Forall P (update k v l).
Proof. induction k; destruct l; cbn [update]; intros F V; auto; inversion F; subst; constructor; auto. Qed.

(** C27: every object of the program. *)
Definition timed_world (w : world Qc) : Prop :=
  Forall (fun d => well_timed (d_data d)) (w_drivers w) /\ Forall (fun m => well_timed (m_data m)) (w_monitors w).
Lemma empty_timed : well_timed [].
Proof. split; constructor. Qed.
Lemma step_timed : forall w c w' o, timed_world w ->
  match c with CMon _ c => sets_data c = false | CDrv _ c => d_sets_data c = false | _ => True end ->
  step w c = Ok (w', o) -> timed_world w'.
Proof.
  intros w c w' o [WD WM] C ST.
  assert (ND : forall k d, nth_error (w_drivers w) k = Some d -> well_timed (d_data d)).
  { intros k d K. apply nth_error_In in K. rewrite Forall_forall in WD. auto. }
  assert (NM : forall k d, nth_error (w_monitors w) k = Some d -> well_timed (m_data d)).
  { intros k d K. apply nth_error_In in K. rewrite Forall_forall in WM. auto. }
  destruct c; cbn [step] in ST;
  repeat match type of ST with
  | bind (need ?r) _ = Ok _ => let X := fresh "X" in destruct r eqn:X; cbn [need bind] in ST; try discriminate ST
  | bind ?r _ = Ok _ => let X := fresh "X" in destruct r as [?| | | |] eqn:X; cbn [bind] in ST; try discriminate ST
  | (match ?p with Some _ => _ | None => _ end) = Ok _ => destruct p
  | (match ?p with (_, _) => _ end) = Ok _ => destruct p
  end; try discriminate ST; injection ST as <- <-; unfold timed_world; cbn [w_drivers w_monitors]; split; auto;
  try (apply Forall_app; split; [assumption|constructor; [|constructor]]; cbn [new_driver new_monitor copy_driver copy_monitor d_data m_data]; eauto using empty_timed; fail).
  - apply update_forall; auto. eapply mstep_timed; eauto.
  - apply update_forall; auto. eapply dstep_timed; eauto.
  - apply Forall_app; split; [assumption|constructor; [|constructor]]. unfold get_monitor. destruct (find phi (d_formulas d)); cbn [new_monitor m_data]; eauto using empty_timed.
  - destruct (Nat.eqb k k'); auto. apply update_forall; auto. cbn [copy_monitor m_data]. eauto.
Qed.
Lemma run_timed : forall h w w' os, timed_world w ->
  Forall (fun c => match c with CMon _ c => sets_data c = false | CDrv _ c => d_sets_data c = false | _ => True end) h ->
  run w h = Ok (w', os) -> timed_world w'.
Proof.
  induction h as [|c h IH]; intros w w' os W F R; cbn [run] in R; [injection R as <- <-; auto|].
  inversion F; subst.
  destruct (step w c) as [[w1 o]| | | |] eqn:ST; cbn [bind] in R; try discriminate R.
  destruct (run w1 h) as [[w2 os']| | | |] eqn:R1; cbn [bind] in R; try discriminate R. injection R as <- <-.
  eapply IH; [|eassumption|exact R1]. eapply step_timed; eauto.
Qed.

(** ** Parameters of a monitor and of a driver *)
Lemma monitor_param : forall S (m : monitor Qc) k v w, find k (m_params m) = Some w ->
  exists m', mstep S m (MSetParam k v) = Ok (S, m', ODone) /\
    mstep S m' (MGetParam k) = Ok (S, m', ONum v) /\
    (forall k', k' <> k -> find k' (m_params m') = find k' (m_params m)) /\
    map fst (m_params m') = map fst (m_params m) /\ m' = m_with_params m (m_params m').
Proof.
  intros S m k v w F. cbn [mstep]. unfold monitor_set_param. rewrite F. eexists. split; [reflexivity|]. cbn [m_with_params m_params].
  destruct (neqb v w) eqn:D; [apply neqb_true in D; subst w|].
  - rewrite F. auto.
  - rewrite find_assign. repeat split; auto.
    + intros k' D'. apply find_assign_other. auto.
    + eapply assign_names; eauto.
Qed.
Lemma monitor_param_unknown : forall (T : Type) (N : Num T) S (m : monitor T) k v, find k (m_params m) = None ->
  mstep S m (MSetParam k v) = Ok (S, m, OThrow) /\ mstep S m (MGetParam k) = Ok (S, m, OThrow).
Proof. intros T N S m k v F. cbn [mstep]. unfold monitor_set_param. rewrite F. auto. Qed.
Lemma driver_param : forall (T : Type) (N : Num T) S (d : driver T) k v w, find k (d_params d) = Some w ->
  exists d', dstep S d (DSetParam k v) = Ok (S, d', ODone) /\
    dstep S d' (DGetParam k) = Ok (S, d', ONum v) /\
    (forall k', k' <> k -> find k' (d_params d') = find k' (d_params d)) /\
    map fst (d_params d') = map fst (d_params d) /\
    d_data d' = d_data d /\ d_signals d' = d_signals d /\ d_sem d' = d_sem d /\ d_ip d' = d_ip d /\
    (k <> EmptyString -> skels (d_formulas d') = skels (d_formulas d)).
Proof.
  intros T N S d k v w F. cbn [dstep]. eexists. split; [reflexivity|]. cbn [d_params d_data d_signals d_sem d_ip d_formulas]. unfold driver_set_param. rewrite F.
  rewrite find_assign. repeat match goal with |- _ /\ _ => split end; auto.
  - intros k' D'. apply find_assign_other. auto.
  - eapply assign_names; eauto.
  - apply skels_set_param.
Qed.
End Samples.

Lemma monitor_samples : forall S (m : monitor Qc) s, well_timed (m_data m) ->
  (fits (m_data m) (List.length (m_signals m)) s -> mstep S m (MAddSample s) = Ok (S, m_with_data m (m_data m ++ [s])%list, ODone)) /\
  (~ fits (m_data m) (List.length (m_signals m)) s -> mstep S m (MAddSample s) = Ok (S, m, OThrow)).
Proof.
  intros S m s W. destruct (add_sample_spec (m_data m) (List.length (m_signals m)) s W) as [A B].
  cbn [mstep]. split; intros F; [rewrite A by auto|rewrite B by auto]; reflexivity.
Qed.
Lemma driver_samples : forall S (d : driver Qc) s, well_timed (d_data d) ->
  (fits (d_data d) (List.length (d_signals d)) s -> dstep S d (DAddSample s) = Ok (S, d_with_data d (d_data d ++ [s])%list, ODone)) /\
  (~ fits (d_data d) (List.length (d_signals d)) s -> dstep S d (DAddSample s) = Ok (S, d, OThrow)).
Proof.
  intros S m s W. destruct (add_sample_spec (d_data m) (List.length (d_signals m)) s W) as [A B].
  cbn [dstep]. split; intros F; [rewrite A by auto|rewrite B by auto]; reflexivity.
Qed.

Section Settings.
Context {T : Type} {N : Num T}.
Lemma d_semantics_read : forall (S : statics T) d s,
  (In s ["SPACE"; "LEFT_TIME"; "RIGHT_TIME"]%string -> exists d', dstep S d (DSetSemantics s) = Ok (S, d', ODone) /\
      dstep S d' DGetSemantics = Ok (S, d', OText s) /\ dstep S d' DGetInterpol = Ok (S, d', OText (show_interpol (d_ip d)))) /\
  (~ In s ["SPACE"; "LEFT_TIME"; "RIGHT_TIME"]%string -> dstep S d (DSetSemantics s) = Ok (S, d, OThrow)).
Proof.
  intros S m s. cbn [dstep]. unfold read_semantics.
  destruct (String.eqb_spec s "SPACE") as [->|D1]; [split; [intros _; eexists; repeat split; reflexivity|intros F; exfalso; apply F; cbn [In]; auto]|].
  destruct (String.eqb_spec s "LEFT_TIME") as [->|D2]; [split; [intros _; eexists; repeat split; reflexivity|intros F; exfalso; apply F; cbn [In]; auto]|].
  destruct (String.eqb_spec s "RIGHT_TIME") as [->|D3]; [split; [intros _; eexists; repeat split; reflexivity|intros F; exfalso; apply F; cbn [In]; auto]|].
  split; [cbn [In]; intuition congruence|reflexivity].
Qed.
Lemma interpol_read : forall (S : statics T) m s,
  (In s ["LINEAR"; "PREVIOUS"]%string -> exists m', mstep S m (MSetInterpol s) = Ok (S, m', ODone) /\
      mstep S m' MGetInterpol = Ok (S, m', OText s) /\ mstep S m' MGetSemantics = Ok (S, m', text (show_semantics (m_sem m)))) /\
  (~ In s ["LINEAR"; "PREVIOUS"]%string -> mstep S m (MSetInterpol s) = Ok (S, m, OThrow)).
Proof.
  intros S m s. cbn [mstep]. unfold read_interpol.
  destruct (String.eqb_spec s "PREVIOUS") as [->|D1]; [split; [intros _; eexists; repeat split; reflexivity|intros F; exfalso; apply F; cbn [In]; auto]|].
  destruct (String.eqb_spec s "LINEAR") as [->|D2]; [split; [intros _; eexists; repeat split; reflexivity|intros F; exfalso; apply F; cbn [In]; auto]|].
  split; [cbn [In]; intuition congruence|reflexivity].
Qed.
Lemma d_interpol_read : forall (S : statics T) d s,
  (In s ["LINEAR"; "PREVIOUS"]%string -> exists d', dstep S d (DSetInterpol s) = Ok (S, d', ODone) /\
      dstep S d' DGetInterpol = Ok (S, d', OText s) /\ dstep S d' DGetSemantics = Ok (S, d', text (show_semantics (d_sem d)))) /\
  (~ In s ["LINEAR"; "PREVIOUS"]%string -> dstep S d (DSetInterpol s) = Ok (S, d, OThrow)).
Proof.
  intros S m s. cbn [dstep]. unfold read_interpol.
  destruct (String.eqb_spec s "PREVIOUS") as [->|D1]; [split; [intros _; eexists; repeat split; reflexivity|intros F; exfalso; apply F; cbn [In]; auto]|].
  destruct (String.eqb_spec s "LINEAR") as [->|D2]; [split; [intros _; eexists; repeat split; reflexivity|intros F; exfalso; apply F; cbn [In]; auto]|].
  split; [cbn [In]; intuition congruence|reflexivity].
Qed.

(** The semantics of every object of every program can be shown: BOOLEAN is never set. *)
Definition shown (w : world T) : Prop :=
  Forall (fun d => d_sem d <> BOOLEAN) (w_drivers w) /\ Forall (fun m => m_sem m <> BOOLEAN) (w_monitors w).
Lemma read_shown : forall s x, read_semantics s = Some x -> x <> BOOLEAN.
Proof.
  intros s x H. unfold read_semantics in H. destruct (String.eqb s "SPACE"); [congruence|]. destruct (String.eqb s "LEFT_TIME"); [congruence|].
  destruct (String.eqb s "RIGHT_TIME"); congruence.
Qed.
Lemma m_eval_sem : forall S m s e S' (m' : monitor T) o, m_eval S m s e = Ok (S', m', o) -> m_sem m' = m_sem m.
Proof.
  intros S m s e S' m' o H. unfold m_eval in H. destruct (m_formula m) as [t|]; [|injection H as <- <- <-; reflexivity].
  destruct (eval_tree S (m_sem m) (m_ip m) (m_data m) (m_params m) t s e) as [[[[S1 [[r lo] up]] t1]| | | |]|[S1 t1]]; cbn [bind] in H; try discriminate H;
    injection H as <- <- <-; reflexivity.
Qed.
Lemma d_online_sem : forall S d phi t S' (d' : driver T) o, d_online S d phi t = Ok (S', d', o) -> d_sem d' = d_sem d.
Proof.
  intros S m s e S' m' o H. unfold d_online in H. destruct (d_data m) eqn:D; [injection H as <- <- <-; auto|].
  destruct (find s (d_formulas m)) as [t|]; [|injection H as <- <- <-; auto].
  destruct (eval_tree S (d_sem m) (d_ip m) (l :: l0) (d_params m) t e e) as [[[[S1 [[r lo] up]] t1]| | | |]|[S1 t1]]; cbn [bind] in H; try discriminate H;
    injection H as <- <- <-; reflexivity.
Qed.
Lemma mstep_shown : forall S m c S' m' o, m_sem m <> BOOLEAN -> mstep S m c = Ok (S', m', o) -> m_sem m' <> BOOLEAN.
Proof.
  intros S m c S' m' o W H. destruct c; cbn [mstep] in *; try (apply m_eval_sem in H; rewrite H; exact W);
  repeat match type of H with
  | bind ?r _ = Ok _ => destruct r as [?| | | |]; cbn [bind] in H; try discriminate H
  | (match ?p with Some _ => _ | None => _ end) = _ => let X := fresh "X" in destruct p eqn:X
  end; try discriminate H; injection H as <- <- <-; try exact W.
  cbn [m_with_sem m_sem]. eapply read_shown; eauto.
Qed.
Lemma dstep_shown : forall S d c S' d' o, d_sem d <> BOOLEAN -> dstep S d c = Ok (S', d', o) -> d_sem d' <> BOOLEAN.
Proof.
  intros S m c S' m' o W H. destruct c; cbn [dstep] in *; try (apply d_online_sem in H; rewrite H; exact W);
  repeat match type of H with
  | bind ?r _ = Ok _ => destruct r as [?| | | |]; cbn [bind] in H; try discriminate H
  | (match ?p with Some _ => _ | None => _ end) = _ => let X := fresh "X" in destruct p eqn:X
  end; try discriminate H; injection H as <- <- <-; try exact W.
  cbn [d_sem]. eapply read_shown; eauto.
Qed.
Lemma run_shown : forall h w w' os, shown w -> run w h = Ok (w', os) -> shown w'.
Proof.
  induction h as [|c h IH]; intros w w' os W R; cbn [run] in R; [injection R as <- <-; auto|].
  destruct (step w c) as [[w1 o]| | | |] eqn:ST; cbn [bind] in R; try discriminate R.
  destruct (run w1 h) as [[w2 os']| | | |] eqn:R1; cbn [bind] in R; try discriminate R. injection R as <- <-.
  eapply IH; [|exact R1]. clear IH R1. destruct W as [WD WM].
  assert (ND : forall k d, nth_error (w_drivers w) k = Some d -> d_sem d <> BOOLEAN).
  { intros k d K. apply nth_error_In in K. rewrite Forall_forall in WD. auto. }
  assert (NM : forall k d, nth_error (w_monitors w) k = Some d -> m_sem d <> BOOLEAN).
  { intros k d K. apply nth_error_In in K. rewrite Forall_forall in WM. auto. }
  destruct c; cbn [step] in ST;
  repeat match type of ST with
  | bind (need ?r) _ = Ok _ => let X := fresh "X" in destruct r eqn:X; cbn [need bind] in ST; try discriminate ST
  | bind ?r _ = Ok _ => let X := fresh "X" in destruct r as [?| | | |] eqn:X; cbn [bind] in ST; try discriminate ST
  | (match ?p with Some _ => _ | None => _ end) = Ok _ => destruct p
  | (match ?p with (_, _) => _ end) = Ok _ => destruct p
  end; try discriminate ST; injection ST as <- <-; unfold shown; cbn [w_drivers w_monitors]; split; auto;
  try (apply Forall_app; split; [assumption|constructor; [|constructor]]; cbn [new_driver new_monitor copy_driver copy_monitor d_sem m_sem]; eauto; discriminate).
  - apply update_forall; auto. eapply mstep_shown; eauto.
  - apply update_forall; auto. eapply dstep_shown; eauto.
  - apply Forall_app; split; [assumption|constructor; [|constructor]]. unfold get_monitor. destruct (find phi (d_formulas d)); cbn [new_monitor m_sem]; eauto. discriminate.
  - destruct (Nat.eqb k k'); auto. apply update_forall; auto. cbn [copy_monitor m_sem]. eauto.
Qed.
End Settings.
