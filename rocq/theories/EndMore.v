(** From a text and samples to numbers, for formulas with until asked early and for held
    signals. *)
From Coq Require Import List Bool String ZArith QArith Qcanon Lia.
From Verif Require Import Num Base Signal QcTac Robust Transducer Spec StlSpec SigProof TreeProof SafeClaims TreeRob StlClaims UntilTree UntilOnline Driver DriverSpec DriverProof Tables Parser ParserSpec ParserTotal LangSpec LangRun LangClaims EndSpec EndProof StepSpec StepClaims StepUntilSpec EndMoreSpec.
Import ListNotations.
Local Open Scope Qc_scope.

Lemma pending_numbers : forall w b E E' f m d s e tr r lo up, pending w b E E' f m d s e -> stands_for tr f ->
  numbers (evaluate E (build f) s e) = Ok (r, lo, up) ->
  exists v, numbers (evaluate E tr s e) = Ok (r, lo, up) /\ numbers (evaluate E' tr s e) = Ok (v, v, v) /\
    (if b then v <= up else lo <= v) /\ rob (eff E') (bound_value E') (e_data E') f s v.
Proof.
  intros w b E E' f m d s e tr r lo up [[U Fr A B Co Lm W HM R UC] EX ND SD ST R' UC' G BG] K NR.
  destruct (until_collapse w E' U tr f s e m K Fr A B Co Lm W HM R UC) as (v & NV & RV).
  exists v. rewrite (evaluate_skel E tr (build f) s e K). split; [exact NR|]. split; [exact NV|]. split; [|exact RV].
  pose proof EX as (X1 & X2 & X3 & X4 & more & X5).
  assert (EF : eff E' = eff E) by (unfold eff, get_param; rewrite X4; reflexivity).
  assert (BV : bound_value E' = bound_value E) by (unfold bound_value, get_param; rewrite X4; reflexivity).
  rewrite EF, BV, X3 in *.
  refine (online_until w E E' U ND EX (build f) f d m s e r lo up b eq_refl SD A B ST Lm W HM R' UC' G BG Co NR v RV).
Qed.

(** A monitor asked twice, whatever the reason the numbers are known. *)
Lemma asked_twice : forall value s d' phi f S rows more t r lo up r' lo' up', in_language value (new_driver, []) s d' -> meaning d' phi = Some f ->
  rows_for (List.length (d_signals (fst d'))) (rows ++ more) ->
  (forall tr, stands_for tr f -> numbers (evaluate (text_env S (fst d') rows) tr t t) = Ok (r, lo, up)) ->
  (forall tr, stands_for tr f -> numbers (evaluate (text_env S (fst d') (rows ++ more)) tr t t) = Ok (r', lo', up')) ->
  exists d1 w, parse value (new_driver, []) s = Ok (true, d1) /\
    run (mkW S [fst d1] []) (CGetMonitor 0 phi :: feed_monitor rows ++ ask_monitor t ++ feed_monitor more ++ ask_monitor t) =
      Ok (w, ODone :: done (List.length rows) ++ [ONum r; ONum lo; ONum up] ++ done (List.length more) ++ [ONum r'; ONum lo'; ONum up'])%list.
Proof.
  intros value s d' phi f S rows more t r lo up r' lo' up' IN M RF NR NV. destruct (read_text value s d' phi f IN M) as (d1 & tr & P & F & K & D0 & D1 & D2 & D3 & D4).
  pose proof (rows_timed _ _ RF) as WT. destruct RF as [RI RL]. apply Forall_app in RL as [RL1 RL2].
  assert (KC : stands_for (clone tr) f) by (unfold stands_for in *; rewrite skel_clone; exact K).
  specialize (NR _ KC).
  set (x0 := get_monitor S (fst d1) phi).
  assert (X0 : x0 = mkMon [] (d_params (fst d')) (d_signals (fst d')) n0 (nopp (s_M S)) (s_M S) n0 n0 (Some (clone tr)) SPACE LINEAR).
  { unfold x0, get_monitor. rewrite F, D0, D1, D2, D3, D4. reflexivity. }
  set (x1 := m_with_data x0 rows).
  assert (E1 : monitor_env S x1 = text_env S (fst d') rows) by (unfold x1; rewrite X0; reflexivity).
  assert (F1 : m_formula x1 = Some (clone tr)) by (unfold x1; rewrite X0; reflexivity).
  rewrite <- E1 in NR. destruct (ask_monitor_run S [fst d1] x1 [] t (clone tr) r lo up F1 NR) as (S1 & tr1 & A1 & M1 & K1).
  set (x2 := m_with_data (m_with_rob x1 r lo up tr1) (rows ++ more)).
  assert (E2 : monitor_env S1 x2 = text_env S (fst d') (rows ++ more)).
  { unfold x2, x1. rewrite X0. unfold monitor_env, text_env. rewrite M1. reflexivity. }
  assert (F2 : m_formula x2 = Some tr1) by (unfold x2, x1; rewrite X0; reflexivity).
  assert (KC1 : stands_for tr1 f) by (unfold stands_for in *; rewrite K1; exact KC).
  specialize (NV _ KC1).
  rewrite <- E2 in NV. destruct (ask_monitor_run S1 [fst d1] x2 [] t tr1 _ _ _ F2 NV) as (S2 & tr2 & A2 & _).
  exists d1. eexists. split; [exact P|].
  cbn [run step w_drivers w_stat w_monitors nth_error need bind app]. fold x0. rewrite !run_app.
  assert (Z0 : m_data x0 = []) by (rewrite X0; reflexivity). assert (Z1 : m_signals x0 = d_signals (fst d')) by (rewrite X0; reflexivity).
  rewrite feed_monitor_run; [|rewrite Z0; eapply timed_prefix; exact WT|rewrite Z1; exact RL1]. rewrite Z0. cbn [app bind]. fold x1.
  rewrite run_app, A1. cbn [bind]. rewrite run_app.
  assert (Z2 : m_data (m_with_rob x1 r lo up tr1) = rows) by (unfold x1; rewrite X0; reflexivity).
  assert (Z3 : m_signals (m_with_rob x1 r lo up tr1) = d_signals (fst d')) by (unfold x1; rewrite X0; reflexivity).
  rewrite feed_monitor_run; [|rewrite Z2; exact WT|rewrite Z3; exact RL2]. rewrite Z2. cbn [bind]. fold x2. rewrite A2. cbn [bind]. reflexivity.
Qed.
Lemma pending_claim : forall value s d' phi f S rows more m d t b r lo up, in_language value (new_driver, []) s d' -> meaning d' phi = Some f ->
  rows_for (List.length (d_signals (fst d'))) (rows ++ more) ->
  pending (List.length (d_signals (fst d'))) b (text_env S (fst d') rows) (text_env S (fst d') (rows ++ more)) f m d t t ->
  numbers (evaluate (text_env S (fst d') rows) (build f) t t) = Ok (r, lo, up) ->
  exists d1 w v, parse value (new_driver, []) s = Ok (true, d1) /\
    run (mkW S [fst d1] []) (CGetMonitor 0 phi :: feed_monitor rows ++ ask_monitor t ++ feed_monitor more ++ ask_monitor t) =
      Ok (w, ODone :: done (List.length rows) ++ [ONum r; ONum lo; ONum up] ++ done (List.length more) ++ [ONum v; ONum v; ONum v])%list /\
    rob (eff (text_env S (fst d') (rows ++ more))) (bound_value (text_env S (fst d') (rows ++ more))) (rows ++ more) f t v /\
    if b then v <= up else lo <= v.
Proof.
  intros value s d' phi f S rows more m d t b r lo up IN M RF C NR.
  destruct (pending_numbers _ _ _ _ _ _ _ _ _ (build f) r lo up C eq_refl NR) as (v & N1 & N2 & L & RV).
  destruct (asked_twice value s d' phi f S rows more t r lo up v v v IN M RF) as (d1 & w & P & RUN).
  - intros tr K. rewrite (evaluate_skel _ tr (build f) t t K). exact N1.
  - intros tr K. rewrite (evaluate_skel _ tr (build f) t t K). exact N2.
  - exists d1, w, v. auto.
Qed.

(** ** Held signals *)
Lemma kept_claim : forall value s d' phi f S rows t, in_language value (new_driver, []) s d' -> meaning d' phi = Some f ->
  rows_for (List.length (d_signals (fst d'))) rows ->
  kept (List.length (d_signals (fst d'))) (held_env S (fst d') rows) f t t ->
  exists d1 w v lo up, parse value (new_driver, []) s = Ok (true, d1) /\
    run (mkW S [fst d1] []) (CDrv 0 (DSetInterpol "PREVIOUS") :: feed_driver rows ++ [CDrv 0 (DOnlineRob phi t)]) =
      Ok (w, ODone :: done (List.length rows) ++ [OVec [v; lo; up]])%list /\
    rob_of held (eff (held_env S (fst d') rows)) (bound_value (held_env S (fst d') rows)) rows f t v.
Proof.
  intros value s d' phi f S rows t IN M RF [U TM A B Co W AT SE]. destruct (read_text value s d' phi f IN M) as (d1 & tr & P & F & K & D0 & D1 & D2 & D3 & D4).
  pose proof (rows_timed _ _ RF) as WT. destruct RF as [RI RL].
  set (d0 := mkDrv (d_data (fst d1)) (d_params (fst d1)) (d_signals (fst d1)) (d_formulas (fst d1)) (d_sem (fst d1)) PREVIOUS).
  assert (EN : driver_env S (d_with_data d0 rows) = held_env S (fst d') rows).
  { unfold driver_env, held_env, d0. cbn [d_with_data d_data d_sem d_ip d_params]. rewrite D1, D3. reflexivity. }
  destruct (held_claim _ (held_env S (fst d') rows) tr f t t U K TM A B Co W AT SE) as (v & lo & up & NV & RV).
  assert (ND : d_data (d_with_data d0 rows) <> []) by apply U.
  rewrite <- EN in NV.
  destruct (driver_numbers S (d_with_data d0 rows) phi t tr v lo up ND F NV) as (tr' & _ & E).
  exists d1. eexists. exists v, lo, up. split; [exact P|]. split; [|exact RV].
  cbn [run step w_drivers w_stat w_monitors nth_error need bind dstep read_interpol String.eqb Ascii.eqb Bool.eqb update]. fold d0. rewrite run_app.
  rewrite feed_driver_run; [|unfold d0; cbn [d_data]; rewrite D0; exact WT|unfold d0; cbn [d_signals]; rewrite D4; exact RL].
  assert (Z : (d_data d0 ++ rows)%list = rows) by (unfold d0; cbn [d_data]; rewrite D0; reflexivity). rewrite Z.
  cbn [app bind run step w_drivers w_stat w_monitors nth_error need]. rewrite E. cbn [bind]. reflexivity.
Qed.
