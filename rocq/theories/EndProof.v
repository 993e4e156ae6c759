(** From a text and samples to numbers. *)
From Coq Require Import List Bool String ZArith QArith Qcanon Lia.
From Verif Require Import Num Base Signal QcTac Robust Transducer Spec StlSpec SigProof TreeProof SafeClaims TreeRob StlClaims UntilTree Driver DriverSpec DriverProof Tables Parser ParserSpec ParserTotal LangSpec LangRun LangClaims EndSpec.
Import ListNotations.
Local Open Scope Qc_scope.

Section Any.
Context {T : Type} {N : Num T}.
Lemma run_app : forall h1 h2 (w : world T), run w (h1 ++ h2) = ('(w1, o1) <- run w h1 ;; '(w2, o2) <- run w1 h2 ;; Ok (w2, o1 ++ o2))%list.
Proof.
  induction h1 as [|c h1 IH]; intros h2 w; cbn [run app bind].
  - destruct (run w h2) as [[w2 o2]| | | |]; reflexivity.
  - destruct (step w c) as [[w1 o]| | | |]; cbn [bind]; auto. rewrite IH.
    destruct (run w1 h1) as [[w2 o1]| | | |]; cbn [bind]; auto. destruct (run w2 h2) as [[w3 o2]| | | |]; reflexivity.
Qed.
Lemma eval_tree_numbers : forall S sem ip data params (t : tree T) s e r lo up,
  numbers (evaluate (mkEnv sem ip (s_M S) data params) t s e) = Ok (r, lo, up) ->
  exists t', eval_tree S sem ip data params t s e = inl (Ok (mkStat sem ip (s_M S), (r, lo, up), t')) /\ skel t' = skel t.
Proof.
  intros S sem ip data params t s e r lo up H. unfold eval_tree. cbn [s_sem s_ip s_M].
  destruct (evaluate (mkEnv sem ip (s_M S) data params) t s e) as [[[[r' lo'] up'] t']| | | |] eqn:EV; cbn [numbers bind] in H; try discriminate H.
  injection H as -> -> ->. exists t'. split; [reflexivity|]. apply skel_evaluate in EV. rewrite EV. apply skel_prepare.
Qed.
Lemma driver_numbers : forall S (d : driver T) phi t tr r lo up, d_data d <> [] -> find phi (d_formulas d) = Some tr ->
  numbers (evaluate (driver_env S d) tr t t) = Ok (r, lo, up) ->
  exists tr', skel tr' = skel tr /\
    dstep S d (DOnlineRob phi t) = Ok (mkStat (d_sem d) (d_ip d) (s_M S), d_with_formulas d (assign phi tr' (d_formulas d)), OVec [r; lo; up]).
Proof.
  intros S d phi t tr r lo up D F H. destruct (eval_tree_numbers S (d_sem d) (d_ip d) (d_data d) (d_params d) tr t t r lo up H) as (tr' & E & K).
  exists tr'. split; [exact K|]. cbn [dstep]. unfold d_online. destruct (d_data d) as [|r0 dd] eqn:DD; [congruence|]. rewrite F, E. reflexivity.
Qed.
Lemma monitor_numbers : forall S (m : monitor T) s e tr r lo up, m_formula m = Some tr ->
  numbers (evaluate (monitor_env S m) tr s e) = Ok (r, lo, up) ->
  exists tr', skel tr' = skel tr /\ mstep S m (MEvalOver s e) = Ok (mkStat (m_sem m) (m_ip m) (s_M S), m_with_rob m r lo up tr', ONum r).
Proof.
  intros S m s e tr r lo up F H. destruct (eval_tree_numbers S (m_sem m) (m_ip m) (m_data m) (m_params m) tr s e r lo up H) as (tr' & E & K).
  exists tr'. split; [exact K|]. cbn [mstep]. unfold m_eval. rewrite F, E. reflexivity.
Qed.
End Any.

(** ** One call *)
Lemma driver_claim : forall w m S (d : driver Qc) phi t tr f, find phi (d_formulas d) = Some tr -> stands_for tr f ->
  complete w (driver_env S d) f m t t ->
  exists S' d' v, dstep S d (DOnlineRob phi t) = Ok (S', d', OVec [v; v; v]) /\
    rob (eff (driver_env S d)) (bound_value (driver_env S d)) (d_data d) f t v.
Proof.
  intros w m S d phi t tr f F K C. destruct C as [U Fr A B Co Lm W HM R UC].
  destruct (until_collapse w (driver_env S d) U tr f t t m K Fr A B Co Lm W HM R UC) as (v & NV & RV).
  destruct U as (_ & _ & ND & _).
  destruct (driver_numbers S d phi t tr v v v ND F NV) as (tr' & _ & E). do 2 eexists. exists v. split; [exact E|exact RV].
Qed.
Lemma monitor_claim : forall w m S (x : monitor Qc) s e tr f, m_formula x = Some tr -> stands_for tr f ->
  complete w (monitor_env S x) f m s e ->
  exists S' x' v, mstep S x (MEvalOver s e) = Ok (S', x', ONum v) /\
    mstep S' x' MRob = Ok (S', x', ONum v) /\ mstep S' x' MLowerRob = Ok (S', x', ONum v) /\ mstep S' x' MUpperRob = Ok (S', x', ONum v) /\
    rob (eff (monitor_env S x)) (bound_value (monitor_env S x)) (m_data x) f s v.
Proof.
  intros w m S x s e tr f F K C. destruct C as [U Fr A B Co Lm W HM R UC].
  destruct (until_collapse w (monitor_env S x) U tr f s e m K Fr A B Co Lm W HM R UC) as (v & NV & RV).
  destruct (monitor_numbers S x s e tr v v v F NV) as (tr' & _ & E). do 2 eexists. exists v. split; [exact E|].
  split; [reflexivity|]. split; [reflexivity|]. split; [reflexivity|exact RV].
Qed.
Lemma afrag_no_until : forall val w f, afrag val w f -> no_until val w f.
Proof.
  intros val w f. induction f; cbn [afrag no_until]; try tauto; intros (A & B & C); (split; [qlra|auto]).
Qed.
(** The interval now contains the number later. *)
Lemma early_numbers : forall w E E' f m d s e tr, early w E E' f m d s e -> stands_for tr f ->
  exists r lo up v, numbers (evaluate E tr s e) = Ok (r, lo, up) /\ numbers (evaluate E' tr s e) = Ok (v, v, v) /\
    lo <= v /\ v <= up /\ rob (eff E') (bound_value E') (e_data E') f s v.
Proof.
  intros w E E' f m d s e tr [[U Fr A B Co Lm W HM R UC] EX ND AF ST R' UC' G] K.
  destruct (until_collapse w E' U tr f s e m K Fr A B Co Lm W HM R UC) as (v & NV & RV).
  pose proof EX as (X1 & X2 & X3 & X4 & more & X5). destruct U as (U1 & U2 & U3).
  assert (TR : trace w (e_data E)) by (eapply trace_prefix; eauto; rewrite <- X5; exact U3).
  destruct (safe_claim w E f tr s e) as (r & lo & up & NR); auto; [congruence|apply afrag_no_until; auto|qlra|].
  exists r, lo, up, v. split; [exact NR|]. split; [exact NV|].
  assert (EF : eff E' = eff E) by (unfold eff, get_param; rewrite X4; reflexivity).
  assert (BV : bound_value E' = bound_value E) by (unfold bound_value, get_param; rewrite X4; reflexivity).
  assert (W' : within (eff E') (e_data E') (e_M E') f). { apply (within_mono E' f m); [qlra|exact W]. }
  rewrite EF, BV, X3 in *.
  destruct (future w E E' (conj U1 (conj U2 U3)) ND EX tr f d s e r lo up K AF A B ST W' HM R' UC' G Co NR v RV) as [L1 L2]. auto.
Qed.

(** ** Samples *)
Lemma timed_prefix : forall l l', well_timed (l ++ l') -> well_timed l.
Proof.
  intros l l' [A R]. split; [apply Forall_app in A; apply A|]. unfold StlSpec.column in *. rewrite map_app in R. destruct (rising_app _ _ R) as (R1 & _). exact R1.
Qed.
Lemma fits_next : forall l r l' n, well_timed (l ++ r :: l') -> List.length r = Datatypes.S n -> fits l n r.
Proof.
  intros l r l' n [A R] L. split; [exact L|]. unfold StlSpec.column in R. rewrite map_app in R. destruct (rising_app _ _ R) as (_ & _ & O).
  apply Forall_forall. intros x I. apply (O (row_time x, nth 0 x 0) (row_time r, nth 0 r 0)); [apply in_map_iff; exists x; auto|left; reflexivity].
Qed.
Lemma feed_driver_run : forall rows S (d : driver Qc) ds ms, well_timed (d_data d ++ rows) -> Forall (fun r => List.length r = Datatypes.S (List.length (d_signals d))) rows ->
  run (mkW S (d :: ds) ms) (feed_driver rows) = Ok (mkW S (d_with_data d (d_data d ++ rows)%list :: ds) ms, done (List.length rows)).
Proof.
  induction rows as [|r rows IH]; intros S d ds ms W L.
  - rewrite app_nil_r. destruct d. reflexivity.
  - apply Forall_cons_iff in L as [L1 L2]. cbn [feed_driver map run step w_drivers w_stat w_monitors nth_error need bind].
    pose proof (timed_prefix _ _ W) as W0. destruct (driver_samples S d r W0) as [Ok1 _]. rewrite Ok1 by (eapply fits_next; eauto). cbn [bind update].
    change (map (fun r => CDrv 0 (DAddSample r)) rows) with (feed_driver rows).
    rewrite IH; cbn [d_with_data d_data d_signals]; auto; [|rewrite <- app_assoc; exact W]. cbn [bind done repeat List.length]. rewrite <- app_assoc. reflexivity.
Qed.
Lemma feed_monitor_run : forall rows S ds (d : monitor Qc) ms, well_timed (m_data d ++ rows) -> Forall (fun r => List.length r = Datatypes.S (List.length (m_signals d))) rows ->
  run (mkW S ds (d :: ms)) (feed_monitor rows) = Ok (mkW S ds (m_with_data d (m_data d ++ rows)%list :: ms), done (List.length rows)).
Proof.
  induction rows as [|r rows IH]; intros S ds d ms W L.
  - rewrite app_nil_r. destruct d. reflexivity.
  - apply Forall_cons_iff in L as [L1 L2]. cbn [feed_monitor map run step w_drivers w_stat w_monitors nth_error need bind].
    pose proof (timed_prefix _ _ W) as W0. destruct (monitor_samples S d r W0) as [Ok1 _]. rewrite Ok1 by (eapply fits_next; eauto). cbn [bind update].
    change (map (fun r => CMon 0 (MAddSample r)) rows) with (feed_monitor rows).
    rewrite IH; cbn [m_with_data m_data m_signals]; auto; [|rewrite <- app_assoc; exact W]. cbn [bind done repeat List.length]. rewrite <- app_assoc. reflexivity.
Qed.
Lemma rows_timed : forall n rows, rows_for n rows -> well_timed rows.
Proof. intros n rows [R L]. split; [|exact R]. eapply Forall_impl; [|exact L]. intros a H ->. discriminate H. Qed.

(** ** A text *)
Lemma read_text : forall value s d' phi f, in_language value (new_driver, []) s d' -> meaning d' phi = Some f ->
  exists d1 tr, parse value (new_driver, []) s = Ok (true, d1) /\ find phi (d_formulas (fst d1)) = Some tr /\ stands_for tr f /\
    d_data (fst d1) = [] /\ d_sem (fst d1) = SPACE /\ d_ip (fst d1) = LINEAR /\ d_params (fst d1) = d_params (fst d') /\ d_signals (fst d1) = d_signals (fst d').
Proof.
  intros value s d' phi f IN M. destruct (language_accepted _ _ _ _ _ _ IN) as (d1 & P & L). exists d1.
  assert (M1 : meaning d1 phi = Some f) by (rewrite <- (meaning_like d' d1 phi L); exact M). unfold meaning in M1.
  destruct (find phi (d_formulas (fst d1))) as [tr|] eqn:F; [|discriminate M1]. exists tr. split; [exact P|]. split; [reflexivity|].
  cbn [option_map] in M1. injection M1 as <-. split; [unfold stands_for; rewrite skel_build; reflexivity|].
  destruct d1 as [d1 tests]. pose proof P as X. apply parse_extends in X. destruct X as (X1 & X2 & X3 & _). destruct L as ((_ & L2 & L3 & _) & _). cbn [fst] in *.
  cbn [new_driver d_data d_sem d_ip] in *. auto.
Qed.
Lemma text_claim : forall value s d' phi f S rows m t, in_language value (new_driver, []) s d' -> meaning d' phi = Some f ->
  rows_for (List.length (d_signals (fst d'))) rows ->
  complete (List.length (d_signals (fst d'))) (text_env S (fst d') rows) f m t t ->
  exists d1 w v, parse value (new_driver, []) s = Ok (true, d1) /\
    run (mkW S [fst d1] []) (feed_driver rows ++ [CDrv 0 (DOnlineRob phi t)]) = Ok (w, done (List.length rows) ++ [OVec [v; v; v]])%list /\
    rob (eff (text_env S (fst d') rows)) (bound_value (text_env S (fst d') rows)) rows f t v.
Proof.
  intros value s d' phi f S rows m t IN M RF C. destruct (read_text value s d' phi f IN M) as (d1 & tr & P & F & K & D0 & D1 & D2 & D3 & D4).
  pose proof (rows_timed _ _ RF) as WT. destruct RF as [RI RL].
  assert (EN : driver_env S (d_with_data (fst d1) rows) = text_env S (fst d') rows).
  { unfold driver_env, text_env. cbn [d_with_data d_data d_sem d_ip d_params]. rewrite D1, D2, D3. reflexivity. }
  destruct (driver_claim (List.length (d_signals (fst d'))) m S (d_with_data (fst d1) rows) phi t tr f F K) as (S' & d2 & v & ST & RV).
  { rewrite EN. exact C. }
  rewrite EN in RV. exists d1. eexists. exists v. split; [exact P|]. split; [|exact RV].
  rewrite run_app. rewrite feed_driver_run; [|rewrite D0; exact WT|rewrite D4; exact RL]. rewrite D0. cbn [app bind run step w_drivers w_stat w_monitors nth_error need].
  rewrite ST. cbn [bind]. reflexivity.
Qed.

Lemma ask_monitor_run : forall S ds (x : monitor Qc) ms t tr r lo up, m_formula x = Some tr ->
  numbers (evaluate (monitor_env S x) tr t t) = Ok (r, lo, up) ->
  exists S' tr', run (mkW S ds (x :: ms)) (ask_monitor t) = Ok (mkW S' ds (m_with_rob x r lo up tr' :: ms), [ONum r; ONum lo; ONum up]) /\
    s_M S' = s_M S /\ skel tr' = skel tr.
Proof.
  intros S ds x ms t tr r lo up F H. destruct (monitor_numbers S x t t tr r lo up F H) as (tr' & K & E).
  change (mstep S x (MEvalOver t t)) with (mstep S x (MEvalAt t)) in E.
  exists (mkStat (m_sem x) (m_ip x) (s_M S)), tr'. split; [|split; [reflexivity|exact K]].
  unfold ask_monitor. cbn [run step w_drivers w_stat w_monitors nth_error need bind]. rewrite E. cbn [bind update nth_error need w_monitors w_stat w_drivers mstep]. reflexivity.
Qed.
Lemma online_claim : forall value s d' phi f S rows more m d t, in_language value (new_driver, []) s d' -> meaning d' phi = Some f ->
  rows_for (List.length (d_signals (fst d'))) (rows ++ more) ->
  early (List.length (d_signals (fst d'))) (text_env S (fst d') rows) (text_env S (fst d') (rows ++ more)) f m d t t ->
  exists d1 w r lo up v, parse value (new_driver, []) s = Ok (true, d1) /\
    run (mkW S [fst d1] []) (CGetMonitor 0 phi :: feed_monitor rows ++ ask_monitor t ++ feed_monitor more ++ ask_monitor t) =
      Ok (w, ODone :: done (List.length rows) ++ [ONum r; ONum lo; ONum up] ++ done (List.length more) ++ [ONum v; ONum v; ONum v])%list /\
    rob (eff (text_env S (fst d') (rows ++ more))) (bound_value (text_env S (fst d') (rows ++ more))) (rows ++ more) f t v /\ lo <= v /\ v <= up.
Proof.
  intros value s d' phi f S rows more m d t IN M RF C. destruct (read_text value s d' phi f IN M) as (d1 & tr & P & F & K & D0 & D1 & D2 & D3 & D4).
  pose proof (rows_timed _ _ RF) as WT. destruct RF as [RI RL]. apply Forall_app in RL as [RL1 RL2].
  assert (KC : stands_for (clone tr) f) by (unfold stands_for in *; rewrite skel_clone; exact K).
  destruct (early_numbers _ _ _ _ _ _ _ _ (clone tr) C KC) as (r & lo & up & v & NR & _ & L1 & L2 & RV).
  set (x0 := get_monitor S (fst d1) phi).
  assert (X0 : x0 = mkMon [] (d_params (fst d')) (d_signals (fst d')) n0 (nopp (s_M S)) (s_M S) n0 n0 (Some (clone tr)) SPACE LINEAR).
  { unfold x0, get_monitor. rewrite F, D0, D1, D2, D3, D4. reflexivity. }
  set (x1 := m_with_data x0 rows).
  assert (E1 : monitor_env S x1 = text_env S (fst d') rows) by (unfold x1; rewrite X0; reflexivity).
  assert (F1 : m_formula x1 = Some (clone tr)) by (unfold x1; rewrite X0; reflexivity).
  rewrite <- E1 in NR. destruct (ask_monitor_run S [fst d1] x1 [] t (clone tr) r lo up F1 NR) as (S1 & tr1 & A1 & M1 & K1).
  set (x2 := m_with_data (m_with_rob x1 r lo up tr1) (rows ++ more)).
  assert (E2 : monitor_env S1 x2 = text_env S (fst d') (rows ++ more)).
  { unfold x2, x1. rewrite X0. unfold monitor_env, text_env. rewrite M1. reflexivity. }
  assert (F2 : m_formula x2 = Some tr1) by (unfold x2, x1; rewrite X0; reflexivity).
  assert (KC1 : stands_for tr1 f) by (unfold stands_for in *; rewrite K1; exact KC).
  destruct (early_numbers _ _ _ _ _ _ _ _ tr1 C KC1) as (_ & _ & _ & v' & _ & NV & _ & _ & RV').
  assert (v' = v) by (eapply rob_unique; eauto). subst v'. clear RV'.
  rewrite <- E2 in NV. destruct (ask_monitor_run S1 [fst d1] x2 [] t tr1 v v v F2 NV) as (S2 & tr2 & A2 & _).
  exists d1. eexists. exists r, lo, up, v. split; [exact P|]. split; [|auto].
  cbn [run step w_drivers w_stat w_monitors nth_error need bind app]. fold x0. rewrite !run_app.
  assert (Z0 : m_data x0 = []) by (rewrite X0; reflexivity). assert (Z1 : m_signals x0 = d_signals (fst d')) by (rewrite X0; reflexivity).
  rewrite feed_monitor_run; [|rewrite Z0; eapply timed_prefix; exact WT|rewrite Z1; exact RL1]. rewrite Z0. cbn [app bind]. fold x1.
  rewrite run_app, A1. cbn [bind]. rewrite run_app.
  assert (Z2 : m_data (m_with_rob x1 r lo up tr1) = rows) by (unfold x1; rewrite X0; reflexivity).
  assert (Z3 : m_signals (m_with_rob x1 r lo up tr1) = d_signals (fst d')) by (unfold x1; rewrite X0; reflexivity).
  rewrite feed_monitor_run; [|rewrite Z2; exact WT|rewrite Z3; exact RL2]. rewrite Z2. cbn [bind]. fold x2. rewrite A2. cbn [bind]. reflexivity.
Qed.
