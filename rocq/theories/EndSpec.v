(** From a text and samples to numbers: C58. *)
From Coq Require Import List String QArith Qcanon.
From Verif Require Import Num Base Signal Robust Transducer Spec StlSpec TreeProof StlClaims Driver.
Import ListNotations.
Local Open Scope Qc_scope.

(** What an evaluation by a driver or a monitor reads, with the process-wide BigM. *)
Definition driver_env {T : Type} (S : statics T) (d : driver T) : env T := mkEnv (d_sem d) (d_ip d) (s_M S) (d_data d) (d_params d).
Definition monitor_env {T : Type} (S : statics T) (m : monitor T) : env T := mkEnv (m_sem m) (m_ip m) (s_M S) (m_data m) (m_params m).

(** The same for the parameters of a text, and given samples. *)
Definition text_env (S : statics Qc) (d : driver Qc) (rows : list (list Qc)) : env Qc := mkEnv SPACE LINEAR (s_M S) rows (d_params d).

(** The conditions of C51: data that covers the formula, numbers below BigM. *)
Record complete (w : nat) (E : env Qc) (f : fml Qc) (m s e : Qc) : Prop := {
  co_usual : usual w E;
  co_formula : ufrag (bound_value E) w f;
  co_start : 0 <= s;
  co_end : s <= e;
  co_covers : covers (bound_value E) (last_time (e_data E)) f e;
  co_below : m < e_M E;
  co_within : within (eff E) (e_data E) m f;
  co_bigM : 0 <= e_M E;
  co_regular : regular (eff E) (bound_value E) (e_data E) f s e;
  co_uncut : uncut (bound_value E) (last_time (e_data E)) f s e }.

(** The conditions of C23 for data that stops early: the data of [E'] begins with that of [E]
    and covers the formula; [d] is the step of the times. *)
Record early (w : nat) (E E' : env Qc) (f : fml Qc) (m d s e : Qc) : Prop := {
  ea_complete : complete w E' f m s e;
  ea_extends : extends E E';
  ea_data : e_data E <> [];
  ea_formula : afrag (bound_value E) w f;
  ea_started : started (bound_value E) (last_time (e_data E)) f s;
  ea_regular : regular (eff E) (bound_value E) (e_data E) f s e;
  ea_uncut : uncut (bound_value E) (last_time (e_data E)) f s e;
  ea_grid : grid_ok d f s e E }.

(** Samples given to driver or monitor 0, in order. *)
Definition feed_driver {T : Type} (rows : list (list T)) : list (call T) := map (fun r => CDrv 0 (DAddSample r)) rows.
Definition feed_monitor {T : Type} (rows : list (list T)) : list (call T) := map (fun r => CMon 0 (MAddSample r)) rows.
(** eval_rob(t), then the two bounds. *)
Definition ask_monitor {T : Type} (t : T) : list (call T) := [CMon 0 (MEvalAt t); CMon 0 MLowerRob; CMon 0 MUpperRob].
(** Every call went well and returned nothing. *)
Definition done {T : Type} (n : nat) : list (out T) := repeat ODone n.
(** Times increase and every row has the time and [n] values. *)
Definition rows_for (n : nat) (rows : list (list Qc)) : Prop :=
  rising (column rows 0) /\ Forall (fun r => List.length r = Datatypes.S n) rows.
