(** Vocabulary for programs that use drivers and monitors. *)
From Coq Require Import List Bool String QArith Qcanon.
From Verif Require Import Num Base Signal Transducer Driver Spec StlSpec.
Import ListNotations.

Section Calls.
Context {T : Type}.

Definition on_monitor (k : nat) (c : call T) : bool := match c with CMon k' _ => Nat.eqb k' k | _ => false end.
Definition on_driver (k : nat) (c : call T) : bool := match c with CDrv k' _ => Nat.eqb k' k | _ => false end.
Definition sets_BigM (c : call T) : bool := match c with CSetBigM _ => true | _ => false end.
Definition assigns_monitor (k : nat) (c : call T) : bool := match c with CAssignMonitor k' _ => Nat.eqb k' k | _ => false end.

(** The results of the calls selected by [p]. *)
Fixpoint results (p : call T -> bool) (h : list (call T)) (os : list (out T)) : list (out T) :=
  match h, os with
  | c :: h', o :: os' => if p c then o :: results p h' os' else results p h' os'
  | _, _ => []
  end.

(** [h] leaves BigM alone and, apart from the calls on it, monitor [k]. *)
Definition spares_monitor (k : nat) (h : list (call T)) : Prop :=
  Forall (fun c => sets_BigM c = false /\ assigns_monitor k c = false) h.
Definition spares_driver (h : list (call T)) : Prop := Forall (fun c => sets_BigM c = false) h.

(** Calls of a history that assign the data as a whole. *)
Definition sets_data (c : mcall T) : bool := match c with MSetData _ => true | _ => false end.
Definition d_sets_data (c : dcall T) : bool := match c with DSetData _ => true | _ => false end.

End Calls.

(** Every row has a time and the times increase strictly. *)
Definition well_timed (data : list (list Qc)) : Prop :=
  Forall (fun r => r <> []) data /\ rising (column data 0).

(** The sample [s] fits [n] signals and is later than the data. *)
Definition fits (data : list (list Qc)) (n : nat) (s : list Qc) : Prop :=
  List.length s = S n /\ Forall (fun r => row_time r < row_time s)%Qc data.

(** The results of the calls of a run. *)
Definition outs {T : Type} (r : res (world T * list (out T))) : res (list (out T)) := '(_, os) <- r ;; Ok os.

(** Does the call set parameter [k]? *)
Definition m_touches {T : Type} (k : string) (c : mcall T) : bool :=
  match c with MSetParam k' _ => String.eqb k' k | _ => false end.
Definition d_touches {T : Type} (k : string) (c : dcall T) : bool :=
  match c with DSetParam k' _ | DParam k' _ => String.eqb k' k | DClear => true | _ => false end.
(** get_signal shows the signal left by the last evaluation. *)
Definition gets_signal {T : Type} (c : mcall T) : bool := match c with MGetSignal => true | _ => false end.
