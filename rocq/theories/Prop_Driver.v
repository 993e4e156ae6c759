(** Properties of drivers and monitors: C27, C28, C29, C41, C42, C43, C44. *)
From Coq Require Import List Bool String QArith Qcanon PrimFloat.
From Verif Require Import Num NumFloat Base Signal Robust Transducer Spec StlSpec SignalClaims TreeProof Driver DriverSpec DriverProof.
Import ListNotations.
Local Open Scope string_scope.

(** ** A program: x > c, ev_[0,1] y > x; two monitors and a copy *)
Definition d_atom : fml Qc := FAtom (FSig "x" 1) GREATERTHAN (FConst (Some "c") (q 0)).
Definition d_ev : fml Qc := FEv (mkI (mkB (q 0) None) (mkB (q 1) None)) (FAtom (FSig "y" 2) GREATERTHAN (FSig "x" 1)).
Definition w0 : world Qc := mkW (mkStat SPACE LINEAR (q 10000)) [new_driver] [].
Definition setup : list (call Qc) :=
  [CDrv 0 (DSignal "x"); CDrv 0 (DSignal "y"); CDrv 0 (DParam "c" (q 1)); CDrv 0 (DFormula "phi" d_atom); CDrv 0 (DFormula "psi" d_ev);
   CDrv 0 (DAddSample [q 0; q 3; q 4]); CDrv 0 (DAddSample [q 2; q 5; q 1]);
   CGetMonitor 0 "phi"; CGetMonitor 0 "psi"; CCopyMonitor 0].
Definition after_setup : world Qc :=
  match run w0 setup with Ok (w, _) => w | _ => w0 end.

(** ** C27 *)

Theorem C27_monitor_samples : forall S (m : monitor Qc) s, well_timed (m_data m) ->
  (fits (m_data m) (List.length (m_signals m)) s -> mstep S m (MAddSample s) = Ok (S, m_with_data m (m_data m ++ [s])%list, ODone)) /\
  (~ fits (m_data m) (List.length (m_signals m)) s -> mstep S m (MAddSample s) = Ok (S, m, OThrow)).
Proof. exact monitor_samples. Qed.
Print Assumptions C27_monitor_samples.

Theorem C27_driver_samples : forall S (d : driver Qc) s, well_timed (d_data d) ->
  (fits (d_data d) (List.length (d_signals d)) s -> dstep S d (DAddSample s) = Ok (S, d_with_data d (d_data d ++ [s])%list, ODone)) /\
  (~ fits (d_data d) (List.length (d_signals d)) s -> dstep S d (DAddSample s) = Ok (S, d, OThrow)).
Proof. exact driver_samples. Qed.
Print Assumptions C27_driver_samples.

(** Every program that does not assign data as a whole keeps the times of all objects
    strictly increasing. *)
Theorem C27_times_increase : forall h w w' os,
  Forall (fun d => well_timed (d_data d)) (w_drivers w) /\ Forall (fun m => well_timed (m_data m)) (w_monitors w) ->
  Forall (fun c => match c with CMon _ c => sets_data c = false | CDrv _ c => d_sets_data c = false | _ => True end) h ->
  run w h = Ok (w', os) ->
  Forall (fun d => well_timed (d_data d)) (w_drivers w') /\ Forall (fun m => well_timed (m_data m)) (w_monitors w').
Proof. exact run_timed. Qed.
Print Assumptions C27_times_increase.

(** On doubles a NaN time is accepted, and after it any time. *)
Theorem C27_refuted_on_doubles : exists (h : list (call float)) w os t1 t2,
  @run float NumF (mkW (mkStat SPACE LINEAR (10000)%float) [@new_driver float] []) h = Ok (w, os) /\
  Forall (fun o => o = ODone) os /\
  map d_data (w_drivers w) = [[[t1]; [(nan)%float]; [t2]]] /\ PrimFloat.ltb t1 t2 = false.
Proof.
  exists [CDrv 0 (DAddSample [(5)%float]); CDrv 0 (DAddSample [(nan)%float]); CDrv 0 (DAddSample [(1)%float])].
  do 4 eexists. split; [vm_compute; reflexivity|]. split; [repeat constructor|]. split; vm_compute; reflexivity.
Qed.
Print Assumptions C27_refuted_on_doubles.

Example C27_case : exists w os,
  run after_setup [CMon 0 (MAddSample [q 3; q 1; q 1]); CMon 0 (MAddSample [q 3; q 2; q 2]); CMon 0 (MAddSample [q 4; q 2]);
                   CDrv 0 (DAddSample [q 2; q 2; q 2]); CMon 0 (MAddSample []); CMon 0 (MAddSample [q 5; q 0; q 0])] = Ok (w, os) /\
  os = [ODone; OThrow; OThrow; OThrow; OThrow; ODone] /\
  option_map m_data (nth_error (w_monitors w) 0) = Some [[q 0; q 3; q 4]; [q 2; q 5; q 1]; [q 3; q 1; q 1]; [q 5; q 0; q 0]].
Proof. do 2 eexists. split; [vm_compute; reflexivity|]. split; vm_compute; reflexivity. Qed.

(** ** C28

    Two programs in which monitor [k] starts in the same state and receives the same calls
    give the same results of these calls, whatever else they do to any other object.
    BigM is a static of the process, see below. *)
Theorem C28_monitors_isolated : forall (T : Type) (N : Num T) k m w1 w2 h1 h2 w1' w2' os1 os2,
  nth_error (w_monitors w1) k = Some m -> nth_error (w_monitors w2) k = Some m ->
  s_M (w_stat w1) = s_M (w_stat w2) -> spares_monitor k h1 -> spares_monitor k h2 ->
  filter (on_monitor k) h1 = filter (on_monitor k) h2 ->
  run w1 h1 = Ok (w1', os1) -> run w2 h2 = Ok (w2', os2) ->
  results (on_monitor k) h1 os1 = results (on_monitor k) h2 os2 /\
  nth_error (w_monitors w1') k = nth_error (w_monitors w2') k.
Proof. exact @monitors_isolated. Qed.
Print Assumptions C28_monitors_isolated.

Theorem C28_drivers_isolated : forall (T : Type) (N : Num T) k d w1 w2 h1 h2 w1' w2' os1 os2,
  nth_error (w_drivers w1) k = Some d -> nth_error (w_drivers w2) k = Some d ->
  s_M (w_stat w1) = s_M (w_stat w2) -> spares_driver h1 -> spares_driver h2 ->
  filter (on_driver k) h1 = filter (on_driver k) h2 ->
  run w1 h1 = Ok (w1', os1) -> run w2 h2 = Ok (w2', os2) ->
  results (on_driver k) h1 os1 = results (on_driver k) h2 os2 /\
  nth_error (w_drivers w1') k = nth_error (w_drivers w2') k.
Proof. exact @drivers_isolated. Qed.
Print Assumptions C28_drivers_isolated.

(** The static BigM is shared: setting it changes what a monitor returns. *)
Theorem C28_BigM_is_shared : exists (w : world Qc) h w1 w2 a b,
  run w h = Ok (w1, [ONum a]) /\ run w (CSetBigM (q 5) :: h) = Ok (w2, [ODone; ONum b]) /\ a <> b.
Proof.
  exists (mkW (mkStat SPACE LINEAR (q 10000)) [] [mkMon [[q 0; q 7]; [q 1; q (-20)]] [] [("x", 1%Z)] 0%Qc 0%Qc 0%Qc 0%Qc 0%Qc
           (Some (build (FEv (mkI (mkB (q 1) None) (mkB (q 2) None)) (FAtom (FSig "x" 1) GREATERTHAN (FConst None 0%Qc))))) SPACE LINEAR]), [CMon 0 MEval].
  do 4 eexists. split; [vm_compute; reflexivity|]. split; [vm_compute; reflexivity|]. discriminate.
Qed.
Print Assumptions C28_BigM_is_shared.

(** Monitor 0 evaluates between calls on the driver, another monitor and its own copy. *)
Definition own : list (call Qc) := [CMon 0 MEval; CMon 0 (MSetParam "c" (q 2)); CMon 0 (MEvalAt (q 1))].
Definition mixed : list (call Qc) :=
  [CDrv 0 (DSetParam "c" (q 9)); CMon 2 (MSetParam "c" (q 8)); CMon 0 MEval; CMon 1 (MSetSemantics "LEFT_TIME"); CMon 1 (MSetInterpol "PREVIOUS");
   CMon 1 (MSetSemantics "SPACE"); CMon 1 MEval; CMon 2 (MAddSample [q 3; q 0; q 0]); CMon 0 (MSetParam "c" (q 2)); CDrv 0 (DOnlineRob "phi" (q 0));
   CAssignMonitor 2 1; CDrv 0 DClear; CSetSemantics "RIGHT_TIME"; CMon 0 (MEvalAt (q 1)); CMon 2 MEval].
Example C28_case : exists m w1 os1 w2 os2,
  nth_error (w_monitors after_setup) 0 = Some m /\ spares_monitor 0 own /\ spares_monitor 0 mixed /\
  filter (on_monitor 0) own = filter (on_monitor 0) mixed /\
  run after_setup own = Ok (w1, os1) /\ run after_setup mixed = Ok (w2, os2) /\
  os1 = [ONum (q 2); ODone; ONum (q 2)].
Proof.
  do 5 eexists. split; [vm_compute; reflexivity|]. split; [repeat constructor|]. split; [repeat constructor|]. split; [reflexivity|].
  split; [vm_compute; reflexivity|]. split; [vm_compute; reflexivity|]. vm_compute. reflexivity.
Qed.

(** ** C29 *)

Theorem C29_monitor : forall S (m : monitor Qc) k v w, find k (m_params m) = Some w ->
  exists m', mstep S m (MSetParam k v) = Ok (S, m', ODone) /\
    mstep S m' (MGetParam k) = Ok (S, m', ONum v) /\
    (forall k', k' <> k -> find k' (m_params m') = find k' (m_params m)) /\
    map fst (m_params m') = map fst (m_params m) /\ m' = m_with_params m (m_params m').
Proof. exact monitor_param. Qed.
Print Assumptions C29_monitor.

Theorem C29_monitor_unknown : forall (T : Type) (N : Num T) S (m : monitor T) k v, find k (m_params m) = None ->
  mstep S m (MSetParam k v) = Ok (S, m, OThrow) /\ mstep S m (MGetParam k) = Ok (S, m, OThrow).
Proof. exact @monitor_param_unknown. Qed.
Print Assumptions C29_monitor_unknown.

Theorem C29_driver : forall (T : Type) (N : Num T) S (d : driver T) k v w, find k (d_params d) = Some w ->
  exists d', dstep S d (DSetParam k v) = Ok (S, d', ODone) /\
    dstep S d' (DGetParam k) = Ok (S, d', ONum v) /\
    (forall k', k' <> k -> find k' (d_params d') = find k' (d_params d)) /\
    map fst (d_params d') = map fst (d_params d) /\
    d_data d' = d_data d /\ d_signals d' = d_signals d /\ d_sem d' = d_sem d /\ d_ip d' = d_ip d /\
    (k <> EmptyString -> map (fun p => (fst p, skel (snd p))) (d_formulas d') = map (fun p => (fst p, skel (snd p))) (d_formulas d)).
Proof. exact @driver_param. Qed.
Print Assumptions C29_driver.

(** An unknown name is ignored: no later sequence of calls gives other results. *)
Theorem C29_driver_unknown : forall (T : Type) (N : Num T) S (d : driver T) k v, find k (d_params d) = None -> k <> EmptyString ->
  exists d', dstep S d (DSetParam k v) = Ok (S, d', ODone) /\
    forall w i cs, nth_error (w_drivers w) i = Some d ->
      outs (run w (map (CDrv i) cs)) = outs (run (mkW (w_stat w) (update i d' (w_drivers w)) (w_monitors w)) (map (CDrv i) cs)).
Proof. exact @unknown_ignored. Qed.
Print Assumptions C29_driver_unknown.

(** The empty name is unknown too, but setting it overwrites every numeric constant. *)
Theorem C29_refuted_empty_name : exists (d : driver Qc) w h w1 w2 a b,
  find EmptyString (d_params d) = None /\ nth_error (w_drivers w) 0 = Some d /\
  run w h = Ok (w1, [OVec a]) /\ run w (CDrv 0 (DSetParam EmptyString (q 7)) :: h) = Ok (w2, [ODone; OVec b]) /\ a <> b.
Proof.
  exists (mkDrv [[q 0; q 3]; [q 1; q 4]] [] [("x", 1%Z)] [("phi", build (FAtom (FSig "x" 1) GREATERTHAN (FConst None (q 1))))] SPACE LINEAR).
  exists (mkW (mkStat SPACE LINEAR (q 10000))
     [mkDrv [[q 0; q 3]; [q 1; q 4]] [] [("x", 1%Z)] [("phi", build (FAtom (FSig "x" 1) GREATERTHAN (FConst None (q 1))))] SPACE LINEAR] []).
  exists [CDrv 0 (DOnlineRob "phi" (q 0))]. do 4 eexists.
  split; [reflexivity|]. split; [reflexivity|]. split; [vm_compute; reflexivity|]. split; [vm_compute; reflexivity|]. discriminate.
Qed.
Print Assumptions C29_refuted_empty_name.

(** Calls that do not set [k] keep it, in every program. *)
Theorem C29_monitor_kept : forall (T : Type) (N : Num T) h w w' os i m k, run w h = Ok (w', os) -> nth_error (w_monitors w) i = Some m ->
  Forall (fun c => assigns_monitor i c = false /\ match c with CMon i' c => Nat.eqb i' i && m_touches k c = false | _ => True end) h ->
  exists m', nth_error (w_monitors w') i = Some m' /\ find k (m_params m') = find k (m_params m).
Proof. exact @run_keeps_m_param. Qed.
Print Assumptions C29_monitor_kept.

Theorem C29_driver_kept : forall (T : Type) (N : Num T) h w w' os i d k, run w h = Ok (w', os) -> nth_error (w_drivers w) i = Some d ->
  Forall (fun c => match c with CDrv i' c => Nat.eqb i' i && d_touches k c = false | _ => True end) h ->
  exists d', nth_error (w_drivers w') i = Some d' /\ find k (d_params d') = find k (d_params d).
Proof. exact @run_keeps_d_param. Qed.
Print Assumptions C29_driver_kept.

Example C29_case : exists w os,
  run after_setup [CMon 0 (MSetParam "c" (q 4)); CMon 0 MEval; CMon 0 (MGetParam "c"); CMon 0 (MSetParam "d" (q 1)); CMon 0 (MGetParam "d");
                   CDrv 0 (DSetParam "d" (q 5)); CDrv 0 (DGetParam "d"); CDrv 0 (DOnlineRob "phi" (q 0)); CDrv 0 (DSetParam "c" (q (-1)));
                   CDrv 0 (DOnlineRob "phi" (q 0)); CMon 0 (MGetParam "c")] = Ok (w, os) /\
  os = [ODone; ONum (q (-1)); ONum (q 4); OThrow; OThrow; ODone; ONum (q 0); OVec [q 2; q 2; q 2]; ODone; OVec [q 4; q 4; q 4]; ONum (q 4)].
Proof. do 2 eexists. split; vm_compute; reflexivity. Qed.

(** ** C41: get_online_rob with no data or an unknown formula *)
Theorem C41_nothing_to_evaluate : forall (T : Type) (N : Num T) S (d : driver T) phi t,
  d_data d = [] \/ find phi (d_formulas d) = None ->
  dstep S d (DOnlineRob phi t) = Ok (S, d, OVec []).
Proof. exact @online_nothing. Qed.
Print Assumptions C41_nothing_to_evaluate.

Example C41_case : exists w1 w2,
  run w0 [CDrv 0 (DSignal "x"); CDrv 0 (DFormula "phi" d_atom); CDrv 0 (DOnlineRob "phi" (q 0))] = Ok (w1, [ODone; ODone; OVec []]) /\
  run after_setup [CDrv 0 (DOnlineRob "chi" (q 0))] = Ok (w2, [OVec []]) /\ w2 = after_setup.
Proof. do 2 eexists. split; [vm_compute; reflexivity|]. split; vm_compute; reflexivity. Qed.

(** ** C42: a monitor from get_monitor evaluates like the driver *)
Theorem C42_monitor_like_driver : forall (T : Type) (N : Num T) S (d : driver T) phi t, d_data d <> [] -> find phi (d_formulas d) <> None ->
  match dstep S d (DOnlineRob phi t), mstep S (get_monitor S d phi) (MEvalAt t) with
  | Ok (S1, _, o1), Ok (S2, m', o2) =>
      S1 = S2 /\ (o1 = OThrow /\ o2 = OThrow \/ exists r, o1 = OVec [r; m_low m'; m_up m'] /\ o2 = ONum r /\ m_rob m' = r)
  | UB, UB | NonFinite, NonFinite | OutOfFuel, OutOfFuel => True
  | _, _ => False
  end.
Proof. exact @monitor_like_driver. Qed.
Print Assumptions C42_monitor_like_driver.

Example C42_case : exists w os,
  run after_setup [CDrv 0 (DOnlineRob "psi" (q 1)); CMon 1 (MEvalAt (q 1)); CMon 1 MLowerRob; CMon 1 MUpperRob; CMon 1 MRob] = Ok (w, os) /\
  os = [OVec [Q2Qc (-3 # 2); Q2Qc (-3 # 2); Q2Qc (-3 # 2)]; ONum (Q2Qc (-3 # 2)); ONum (Q2Qc (-3 # 2)); ONum (Q2Qc (-3 # 2)); ONum (Q2Qc (-3 # 2))].
Proof. do 2 eexists. split; vm_compute; reflexivity. Qed.

(** ** C43: semantics and interpolation names *)
Theorem C43_monitor_semantics : forall (T : Type) (N : Num T) (S : statics T) m s,
  (In s ["SPACE"; "LEFT_TIME"; "RIGHT_TIME"]%string -> exists m', mstep S m (MSetSemantics s) = Ok (S, m', ODone) /\
      mstep S m' MGetSemantics = Ok (S, m', OText s) /\ mstep S m' MGetInterpol = Ok (S, m', OText (show_interpol (m_ip m)))) /\
  (~ In s ["SPACE"; "LEFT_TIME"; "RIGHT_TIME"]%string -> mstep S m (MSetSemantics s) = Ok (S, m, OThrow)).
Proof. exact @semantics_read. Qed.
Print Assumptions C43_monitor_semantics.

Theorem C43_driver_semantics : forall (T : Type) (N : Num T) (S : statics T) d s,
  (In s ["SPACE"; "LEFT_TIME"; "RIGHT_TIME"]%string -> exists d', dstep S d (DSetSemantics s) = Ok (S, d', ODone) /\
      dstep S d' DGetSemantics = Ok (S, d', OText s) /\ dstep S d' DGetInterpol = Ok (S, d', OText (show_interpol (d_ip d)))) /\
  (~ In s ["SPACE"; "LEFT_TIME"; "RIGHT_TIME"]%string -> dstep S d (DSetSemantics s) = Ok (S, d, OThrow)).
Proof. exact @d_semantics_read. Qed.
Print Assumptions C43_driver_semantics.

Theorem C43_monitor_interpol : forall (T : Type) (N : Num T) (S : statics T) m s,
  (In s ["LINEAR"; "PREVIOUS"]%string -> exists m', mstep S m (MSetInterpol s) = Ok (S, m', ODone) /\
      mstep S m' MGetInterpol = Ok (S, m', OText s) /\ mstep S m' MGetSemantics = Ok (S, m', text (show_semantics (m_sem m)))) /\
  (~ In s ["LINEAR"; "PREVIOUS"]%string -> mstep S m (MSetInterpol s) = Ok (S, m, OThrow)).
Proof. exact @interpol_read. Qed.
Print Assumptions C43_monitor_interpol.

Theorem C43_driver_interpol : forall (T : Type) (N : Num T) (S : statics T) d s,
  (In s ["LINEAR"; "PREVIOUS"]%string -> exists d', dstep S d (DSetInterpol s) = Ok (S, d', ODone) /\
      dstep S d' DGetInterpol = Ok (S, d', OText s) /\ dstep S d' DGetSemantics = Ok (S, d', text (show_semantics (d_sem d)))) /\
  (~ In s ["LINEAR"; "PREVIOUS"]%string -> dstep S d (DSetInterpol s) = Ok (S, d, OThrow)).
Proof. exact @d_interpol_read. Qed.
Print Assumptions C43_driver_interpol.

(** No program brings an object to a semantics that get_semantics cannot show. *)
Theorem C43_always_shown : forall (T : Type) (N : Num T) h (w w' : world T) os,
  Forall (fun d => d_sem d <> BOOLEAN) (w_drivers w) /\ Forall (fun m => m_sem m <> BOOLEAN) (w_monitors w) ->
  run w h = Ok (w', os) ->
  Forall (fun d => d_sem d <> BOOLEAN) (w_drivers w') /\ Forall (fun m => m_sem m <> BOOLEAN) (w_monitors w').
Proof. exact @run_shown. Qed.
Print Assumptions C43_always_shown.

Example C43_case : exists w os,
  run after_setup [CMon 0 (MSetSemantics "BOOLEAN"); CMon 0 MGetSemantics; CMon 0 (MSetSemantics "LEFT_TIME"); CMon 0 (MSetInterpol "previous"); CMon 0 (MSetInterpol "PREVIOUS");
                   CMon 0 MGetSemantics; CMon 0 MGetInterpol; CDrv 0 DGetSemantics] = Ok (w, os) /\
  os = [OThrow; OText "SPACE"; ODone; OThrow; ODone; OText "LEFT_TIME"; OText "PREVIOUS"; OText "SPACE"].
Proof. do 2 eexists. split; vm_compute; reflexivity. Qed.

(** ** C44: copies behave like the original *)
Theorem C44_copied_monitor : forall (T : Type) (N : Num T) w k k' (m : monitor T) cs,
  nth_error (w_monitors w) k = Some m -> nth_error (w_monitors w) k' = Some (copy_monitor m) ->
  Forall (fun c => gets_signal c = false) cs ->
  outs (run w (map (CMon k) cs)) = outs (run w (map (CMon k') cs)).
Proof. exact @copied_monitor. Qed.
Print Assumptions C44_copied_monitor.

Theorem C44_copied_driver : forall (T : Type) (N : Num T) w k k' (d : driver T) cs,
  nth_error (w_drivers w) k = Some d -> nth_error (w_drivers w) k' = Some (copy_driver d) ->
  outs (run w (map (CDrv k) cs)) = outs (run w (map (CDrv k') cs)).
Proof. exact @copied_driver. Qed.
Print Assumptions C44_copied_driver.

(** get_signal is the exception: the copy has no signal before its first evaluation. *)
Theorem C44_refuted_signal : exists (w : world Qc) w' z,
  run w [CMon 0 MEval; CCopyMonitor 0; CMon 0 MGetSignal; CMon 1 MGetSignal] = Ok (w', [ONum (q 2); ODone; OSignal z; OSignal empty_signal]) /\
  samples z <> [].
Proof.
  exists (mkW (w_stat after_setup) (w_drivers after_setup) (firstn 1 (w_monitors after_setup))).
  do 2 eexists. split; [vm_compute; reflexivity|]. discriminate.
Qed.
Print Assumptions C44_refuted_signal.

(** The copy made in [setup], after monitor 0 has been evaluated in another mode. *)
Example C44_case : exists w os m,
  run after_setup [CMon 1 (MEvalAt (q 1)); CCopyMonitor 1] = Ok (w, os) /\
  nth_error (w_monitors w) 1 = Some m /\ nth_error (w_monitors w) 3 = Some (copy_monitor m) /\ m_formula (copy_monitor m) <> m_formula m /\
  outs (run w (map (CMon 3) [MLowerRob; MAddSample [q 3; q 0; q 0]; MEval; MUpperRob])) = Ok [ONum (Q2Qc (-3 # 2)); ODone; ONum (q 1); ONum (q 1)].
Proof. do 3 eexists. split; [vm_compute; reflexivity|]. split; [vm_compute; reflexivity|]. split; [vm_compute; reflexivity|]. split; [discriminate|]. vm_compute. reflexivity. Qed.
