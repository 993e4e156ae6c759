(** Model of STLMonitor (include/stl_monitor.h, src/stl_monitor.cpp) and STLDriver
    (include/stl_driver.h, src/stl_driver.cpp), and of a program that uses several of
    them at once. *)
From Coq Require Import List Bool String ZArith.
From Verif Require Import Num Base Signal Robust Transducer.
Import ListNotations.
Local Open Scope string_scope.

(** stl_monitor.h:18-28, the members of an STLMonitor.  A null formula is [None]. *)
Record monitor (T : Type) := mkMon {
  m_data : list (list T); m_params : list (string * T); m_signals : list (string * Z);
  m_rob : T; m_low : T; m_up : T; m_start : T; m_end : T;
  m_formula : option (tree T); m_sem : semantics; m_ip : interpol }.
Arguments mkMon {T} m_data m_params m_signals m_rob m_low m_up m_start m_end m_formula m_sem m_ip.
Arguments m_data {T} m.
Arguments m_params {T} m.
Arguments m_signals {T} m.
Arguments m_rob {T} m.
Arguments m_low {T} m.
Arguments m_up {T} m.
Arguments m_start {T} m.
Arguments m_end {T} m.
Arguments m_formula {T} m.
Arguments m_sem {T} m.
Arguments m_ip {T} m.

(** stl_driver.h:69-95, the members of an STLDriver that evaluations and monitors use.
    Not here: the test queue and reports, which are in Tests.v.  Not modelled: the scanner and stream names. *)
Record driver (T : Type) := mkDrv {
  d_data : list (list T); d_params : list (string * T); d_signals : list (string * Z);
  d_formulas : list (string * tree T); d_sem : semantics; d_ip : interpol }.
Arguments mkDrv {T} d_data d_params d_signals d_formulas d_sem d_ip.
Arguments d_data {T} d.
Arguments d_params {T} d.
Arguments d_signals {T} d.
Arguments d_formulas {T} d.
Arguments d_sem {T} d.
Arguments d_ip {T} d.

(** signal.cpp:8-11: the statics of class Signal, shared by the whole process. *)
Record statics (T : Type) := mkStat { s_sem : semantics; s_ip : interpol; s_M : T }.
Arguments mkStat {T} s_sem s_ip s_M.
Arguments s_sem {T} s.
Arguments s_ip {T} s.
Arguments s_M {T} s.

(** What a call returns: nothing, a std::invalid_argument or std::out_of_range, a
    number, a vector, a text, a signal. *)
Inductive out (T : Type) :=
| ODone
| OThrow
| ONum (v : T)
| OVec (l : list T)
| OText (s : string)
| OSignal (z : signal T).
Arguments ODone {T}.
Arguments OThrow {T}.
Arguments ONum {T} v.
Arguments OVec {T} l.
Arguments OText {T} s.
Arguments OSignal {T} z.

(** std::map: find, and m[k] = v. *)
Fixpoint find {A : Type} (k : string) (m : list (string * A)) : option A :=
  match m with
  | nil => None
  | (k', v) :: m' => if String.eqb k k' then Some v else find k m'
  end.
Fixpoint assign {A : Type} (k : string) (v : A) (m : list (string * A)) : list (string * A) :=
  match m with
  | nil => [(k, v)]
  | (k', w) :: m' => if String.eqb k k' then (k', v) :: m' else (k', w) :: assign k v m'
  end.

(** stl_monitor.h:128-146, stl_driver.h:131-149, signal.h:87-97. *)
Definition read_semantics (s : string) : option semantics :=
  if String.eqb s "SPACE" then Some SPACE
  else if String.eqb s "LEFT_TIME" then Some LEFT_TIME
  else if String.eqb s "RIGHT_TIME" then Some RIGHT_TIME
  else None.
(** stl_monitor.h:148-161; BOOLEAN has no case. *)
Definition show_semantics (s : semantics) : option string :=
  match s with SPACE => Some "SPACE" | LEFT_TIME => Some "LEFT_TIME" | RIGHT_TIME => Some "RIGHT_TIME" | BOOLEAN => None end.
(** stl_monitor.h:163-178, stl_driver.h:166-180. *)
Definition read_interpol (s : string) : option interpol :=
  if String.eqb s "PREVIOUS" then Some PREVIOUS
  else if String.eqb s "LINEAR" then Some LINEAR
  else None.
(** stl_monitor.h:180-191. *)
Definition show_interpol (i : interpol) : string := match i with PREVIOUS => "PREVIOUS" | LINEAR => "LINEAR" end.
Definition text {T : Type} (s : option string) : out T := match s with Some s => OText s | None => OThrow end.

Section Driver.
Context {T : Type} {N : Num T}.

(** stl_monitor.cpp:15-26 and stl_driver.cpp:461-472: may the sample be appended?
    data.back()[0] of an empty row is undefined. *)
Definition accepts (data : list (list T)) (nsignals : nat) (s : list T) : res bool :=
  if negb (Nat.eqb (List.length s) (nsignals + 1)) then Ok false
  else match s with
       | nil => UB
       | t :: _ =>
           match data with
           | nil => Ok true
           | _ => match last data [] with
                  | nil => UB
                  | t' :: _ => Ok (negb (nleb t t'))
                  end
           end
       end.
Definition add_sample (data : list (list T)) (nsignals : nat) (s : list T) : res (option (list (list T))) :=
  b <- accepts data nsignals s ;;
  Ok (if b : bool then Some (data ++ [s])%list else None).

(** stl_monitor.h:195-210: the assignment is skipped if the value does not change. *)
Definition monitor_set_param (m : list (string * T)) (k : string) (v : T) : option (list (string * T)) :=
  match find k m with
  | Some w => Some (if neqb v w then m else assign k v m)
  | None => None
  end.

(** stl_driver.cpp:380-392. *)
Definition driver_set_param (m : list (string * T)) (k : string) (v : T) : list (string * T) :=
  match find k m with Some _ => assign k v m | None => m end.

(** An evaluation (stl_monitor.cpp:38-51, stl_driver.cpp:529-540): sets the statics, then
    evaluates the tree.  An exception can only come from the first pass; the tree then
    keeps the preparation (partly computed signals are not modelled: the next evaluation
    clears them). *)
Definition eval_tree (S : statics T) (sem : semantics) (ip : interpol) (data : list (list T))
           (params : list (string * T)) (t : tree T) (s e : T)
  : res (statics T * (T * T * T) * tree T) + statics T * tree T :=
  let S' := mkStat sem ip (s_M S) in
  let E := mkEnv (s_sem S') (s_ip S') (s_M S') data params in
  match evaluate E t s e with
  | Ok (r, lo, up, t') => inl (Ok (S', (r, lo, up), t'))
  | Exn => inr (S', prepare E t s e)
  | UB => inl UB
  | NonFinite => inl NonFinite
  | OutOfFuel => inl OutOfFuel
  end.

(** ** Calls on a monitor *)
Inductive mcall :=
| MAddSample (s : list T)
| MSetSemantics (s : string) | MGetSemantics
| MSetInterpol (s : string) | MGetInterpol
| MSetParam (k : string) (v : T) | MGetParam (k : string)
| MSetEvalTime (s e : T)
| MEval | MEvalAt (t : T) | MEvalOver (s e : T)
| MRob | MLowerRob | MUpperRob
| MResetData
| MSetData (d : list (list T))         (* the member data is public *)
| MGetSignal.

Definition m_with_data (m : monitor T) d :=
  mkMon d (m_params m) (m_signals m) (m_rob m) (m_low m) (m_up m) (m_start m) (m_end m) (m_formula m) (m_sem m) (m_ip m).
Definition m_with_params (m : monitor T) p :=
  mkMon (m_data m) p (m_signals m) (m_rob m) (m_low m) (m_up m) (m_start m) (m_end m) (m_formula m) (m_sem m) (m_ip m).
Definition m_with_rob (m : monitor T) r lo up t :=
  mkMon (m_data m) (m_params m) (m_signals m) r lo up (m_start m) (m_end m) (Some t) (m_sem m) (m_ip m).
Definition m_with_times (m : monitor T) s e :=
  mkMon (m_data m) (m_params m) (m_signals m) (m_rob m) (m_low m) (m_up m) s e (m_formula m) (m_sem m) (m_ip m).
Definition m_with_sem (m : monitor T) s :=
  mkMon (m_data m) (m_params m) (m_signals m) (m_rob m) (m_low m) (m_up m) (m_start m) (m_end m) (m_formula m) s (m_ip m).
Definition m_with_ip (m : monitor T) i :=
  mkMon (m_data m) (m_params m) (m_signals m) (m_rob m) (m_low m) (m_up m) (m_start m) (m_end m) (m_formula m) (m_sem m) i.

(** stl_monitor.cpp:34-51, eval_rob(t_start, t_end). *)
Definition m_eval (S : statics T) (m : monitor T) (s e : T) : res (statics T * monitor T * out T) :=
  match m_formula m with
  | None => Ok (S, m, ONum (m_rob m))
  | Some t =>
      match eval_tree S (m_sem m) (m_ip m) (m_data m) (m_params m) t s e with
      | inl r => '(S', (r, lo, up), t') <- r ;; Ok (S', m_with_rob m r lo up t', ONum r)
      | inr (S', t') => Ok (S', m_with_rob m (m_rob m) (m_low m) (m_up m) t', OThrow)
      end
  end.

Definition mstep (S : statics T) (m : monitor T) (c : mcall) : res (statics T * monitor T * out T) :=
  match c with
  | MAddSample s =>
      d <- add_sample (m_data m) (List.length (m_signals m)) s ;;
      match d with Some d => Ok (S, m_with_data m d, ODone) | None => Ok (S, m, OThrow) end
  | MSetSemantics s =>
      match read_semantics s with Some x => Ok (S, m_with_sem m x, ODone) | None => Ok (S, m, OThrow) end
  | MGetSemantics => Ok (S, m, text (show_semantics (m_sem m)))
  | MSetInterpol s =>
      match read_interpol s with Some x => Ok (S, m_with_ip m x, ODone) | None => Ok (S, m, OThrow) end
  | MGetInterpol => Ok (S, m, OText (show_interpol (m_ip m)))
  | MSetParam k v =>
      match monitor_set_param (m_params m) k v with
      | Some p => Ok (S, m_with_params m p, ODone)
      | None => Ok (S, m, OThrow)
      end
  | MGetParam k => Ok (S, m, match find k (m_params m) with Some v => ONum v | None => OThrow end)
  | MSetEvalTime s e => Ok (S, m_with_times m s e, ODone)
  | MEval => m_eval S m (m_start m) (m_end m)
  | MEvalAt t => m_eval S m t t
  | MEvalOver s e => m_eval S m s e
  | MRob => Ok (S, m, ONum (m_rob m))
  | MLowerRob => Ok (S, m, ONum (m_low m))
  | MUpperRob => Ok (S, m, ONum (m_up m))
  | MResetData => Ok (S, m_with_data m [], ODone)
  | MSetData d => Ok (S, m_with_data m d, ODone)
  | MGetSignal => match m_formula m with Some t => Ok (S, m, OSignal (tz t)) | None => UB end
  end.

(** stl_monitor.h:31, the default constructor. *)
Definition new_monitor : monitor T := mkMon [] [] [] n0 n0 n0 n0 n0 None SPACE LINEAR.
(** stl_monitor.h:33-80, copy construction and assignment. *)
Definition copy_monitor (m : monitor T) : monitor T :=
  mkMon (m_data m) (m_params m) (m_signals m) (m_rob m) (m_low m) (m_up m) (m_start m) (m_end m)
        (match m_formula m with Some t => Some (clone t) | None => None end) (m_sem m) (m_ip m).

(** ** Calls on a driver *)
Inductive dcall :=
| DAddSample (s : list T)
| DSetSemantics (s : string) | DGetSemantics
| DSetInterpol (s : string) | DGetInterpol
| DSetParam (k : string) (v : T) | DGetParam (k : string)
| DOnlineRob (phi : string) (t0 : T)
| DSetData (d : list (list T))         (* the member data is public *)
| DClear
| DSignal (x : string)              (* effect of parsing: declare a signal *)
| DParam (k : string) (v : T)       (* effect of parsing: declare a parameter *)
| DFormula (phi : string) (f : fml T). (* effect of parsing: define a formula *)

Definition d_with_data (d : driver T) x := mkDrv x (d_params d) (d_signals d) (d_formulas d) (d_sem d) (d_ip d).
Definition d_with_formulas (d : driver T) x := mkDrv (d_data d) (d_params d) (d_signals d) x (d_sem d) (d_ip d).

(** stl_driver.cpp:513-541, get_online_rob. *)
Definition d_online (S : statics T) (d : driver T) (phi : string) (t0 : T) : res (statics T * driver T * out T) :=
  match d_data d with
  | nil => Ok (S, d, OVec [])
  | _ =>
      match find phi (d_formulas d) with
      | None => Ok (S, d, OVec [])
      | Some t =>
          match eval_tree S (d_sem d) (d_ip d) (d_data d) (d_params d) t t0 t0 with
          | inl r => '(S', (r, lo, up), t') <- r ;;
                     Ok (S', d_with_formulas d (assign phi t' (d_formulas d)), OVec [r; lo; up])
          | inr (S', t') => Ok (S', d_with_formulas d (assign phi t' (d_formulas d)), OThrow)
          end
      end
  end.

(** Conversion to short (16 bits, two's complement). *)
Definition to_short (z : Z) : Z := ((z + 32768) mod 65536 - 32768)%Z.

(** stl_parser.ypp:476-485, signal_new: a new name gets the next column, as a short. *)
Definition new_signal (x : string) (m : list (string * Z)) : list (string * Z) :=
  match find x m with Some _ => m | None => assign x (to_short (Z.of_nat (List.length m) + 1)) m end.

Definition dstep (S : statics T) (d : driver T) (c : dcall) : res (statics T * driver T * out T) :=
  match c with
  | DAddSample s =>
      x <- add_sample (d_data d) (List.length (d_signals d)) s ;;
      match x with Some x => Ok (S, d_with_data d x, ODone) | None => Ok (S, d, OThrow) end
  | DSetSemantics s =>
      match read_semantics s with
      | Some x => Ok (S, mkDrv (d_data d) (d_params d) (d_signals d) (d_formulas d) x (d_ip d), ODone)
      | None => Ok (S, d, OThrow)
      end
  | DGetSemantics => Ok (S, d, text (show_semantics (d_sem d)))
  | DSetInterpol s =>
      match read_interpol s with
      | Some x => Ok (S, mkDrv (d_data d) (d_params d) (d_signals d) (d_formulas d) (d_sem d) x, ODone)
      | None => Ok (S, d, OThrow)
      end
  | DGetInterpol => Ok (S, d, OText (show_interpol (d_ip d)))
  | DSetParam k v =>
      Ok (S, mkDrv (d_data d) (driver_set_param (d_params d) k v) (d_signals d)
                   (map (fun p => (fst p, tree_set_param k v (snd p))) (d_formulas d)) (d_sem d) (d_ip d), ODone)
  | DGetParam k => Ok (S, d, ONum (match find k (d_params d) with Some v => v | None => n0 end))
  | DOnlineRob phi t0 => d_online S d phi t0
  | DSetData x => Ok (S, d_with_data d x, ODone)
  | DClear => (* stl_driver.cpp:197-239: signals and data are kept *)
      Ok (S, mkDrv (d_data d) [] (d_signals d) [] (d_sem d) (d_ip d), ODone)
  | DSignal x => Ok (S, mkDrv (d_data d) (d_params d) (new_signal x (d_signals d)) (d_formulas d) (d_sem d) (d_ip d), ODone)
  | DParam k v => Ok (S, mkDrv (d_data d) (assign k v (d_params d)) (d_signals d) (d_formulas d) (d_sem d) (d_ip d), ODone)
  | DFormula phi f => Ok (S, d_with_formulas d (assign phi (build f) (d_formulas d)), ODone)
  end.

(** stl_driver.cpp:18-29. *)
Definition new_driver : driver T := mkDrv [] [] [] [] SPACE LINEAR.
(** stl_driver.cpp:53-109, copy construction and assignment. *)
Definition copy_driver (d : driver T) : driver T :=
  mkDrv (d_data d) (d_params d) (d_signals d) (map (fun p => (fst p, clone (snd p))) (d_formulas d)) (d_sem d) (d_ip d).

(** stl_driver.cpp:474-511, get_monitor. *)
Definition get_monitor (S : statics T) (d : driver T) (phi : string) : monitor T :=
  match find phi (d_formulas d) with
  | Some t => mkMon (d_data d) (d_params d) (d_signals d) n0 (nopp (s_M S)) (s_M S) n0 n0 (Some (clone t)) (d_sem d) (d_ip d)
  | None => new_monitor
  end.

(** ** A program with several drivers and monitors

    Objects are numbered in the order of creation. *)
Record world := mkW { w_stat : statics T; w_drivers : list (driver T); w_monitors : list (monitor T) }.

Inductive call :=
| CMon (k : nat) (c : mcall)          (* call on monitor k *)
| CDrv (k : nat) (c : dcall)          (* call on driver k *)
| CNewDriver | CCopyDriver (k : nat)
| CNewMonitor | CCopyMonitor (k : nat)
| CGetMonitor (k : nat) (phi : string)
| CAssignMonitor (k k' : nat)         (* monitor k = monitor k' *)
| CSetSemantics (s : string)          (* Signal::set_semantics *)
| CSetInterpol (s : string)           (* Signal::set_interpol *)
| CSetBigM (v : T).                   (* Signal::set_BigM *)

Fixpoint update {A : Type} (k : nat) (v : A) (l : list A) : list A :=
  match l, k with
  | nil, _ => nil
  | _ :: l', O => v :: l'
  | x :: l', S k' => x :: update k' v l'
  end.

(** Calls on objects that do not exist are not programs: [UB]. *)
Definition need {A : Type} (o : option A) : res A := match o with Some a => Ok a | None => UB end.

Definition step (w : world) (c : call) : res (world * out T) :=
  let S := w_stat w in
  match c with
  | CMon k c =>
      m <- need (nth_error (w_monitors w) k) ;;
      '(S', m', o) <- mstep S m c ;;
      Ok (mkW S' (w_drivers w) (update k m' (w_monitors w)), o)
  | CDrv k c =>
      d <- need (nth_error (w_drivers w) k) ;;
      '(S', d', o) <- dstep S d c ;;
      Ok (mkW S' (update k d' (w_drivers w)) (w_monitors w), o)
  | CNewDriver => Ok (mkW S (w_drivers w ++ [new_driver])%list (w_monitors w), ODone)
  | CCopyDriver k =>
      d <- need (nth_error (w_drivers w) k) ;;
      Ok (mkW S (w_drivers w ++ [copy_driver d])%list (w_monitors w), ODone)
  | CNewMonitor => Ok (mkW S (w_drivers w) (w_monitors w ++ [new_monitor])%list, ODone)
  | CCopyMonitor k =>
      m <- need (nth_error (w_monitors w) k) ;;
      Ok (mkW S (w_drivers w) (w_monitors w ++ [copy_monitor m])%list, ODone)
  | CGetMonitor k phi =>
      d <- need (nth_error (w_drivers w) k) ;;
      Ok (mkW S (w_drivers w) (w_monitors w ++ [get_monitor S d phi])%list, ODone)
  | CAssignMonitor k k' =>
      _ <- need (nth_error (w_monitors w) k) ;;
      m' <- need (nth_error (w_monitors w) k') ;;
      Ok (mkW S (w_drivers w) (if Nat.eqb k k' then w_monitors w else update k (copy_monitor m') (w_monitors w)), ODone)
  | CSetSemantics s =>
      match read_semantics s with
      | Some x => Ok (mkW (mkStat x (s_ip S) (s_M S)) (w_drivers w) (w_monitors w), ODone)
      | None => Ok (w, OThrow)
      end
  | CSetInterpol s =>
      match read_interpol s with
      | Some x => Ok (mkW (mkStat (s_sem S) x (s_M S)) (w_drivers w) (w_monitors w), ODone)
      | None => Ok (w, OThrow)
      end
  | CSetBigM v => Ok (mkW (mkStat (s_sem S) (s_ip S) v) (w_drivers w) (w_monitors w), ODone)
  end.

(** A sequence of calls; the results of the calls in order. *)
Fixpoint run (w : world) (h : list call) : res (world * list (out T)) :=
  match h with
  | nil => Ok (w, [])
  | c :: h' =>
      '(w', o) <- step w c ;;
      '(w'', os) <- run w' h' ;;
      Ok (w'', o :: os)
  end.

End Driver.
Arguments mcall : clear implicits.
Arguments dcall : clear implicits.
Arguments call : clear implicits.
Arguments world : clear implicits.
