(** From a text and samples to numbers, for formulas with until asked early and for held
    signals: C58. *)
From Coq Require Import List String QArith Qcanon.
From Verif Require Import Num Base Signal Robust Transducer Spec StlSpec TreeProof StlClaims UntilOnline Driver EndSpec StepSpec StepClaims.
Import ListNotations.
Local Open Scope Qc_scope.

(** The conditions of C23 with until: as in [early], with [sided] and [begun]; [b] tells
    which bound is meant. *)
Record pending (w : nat) (b : bool) (E E' : env Qc) (f : fml Qc) (m d s e : Qc) : Prop := {
  pe_complete : complete w E' f m s e;
  pe_extends : extends E E';
  pe_data : e_data E <> [];
  pe_formula : sided (bound_value E) w b f;
  pe_started : started (bound_value E) (last_time (e_data E)) f s;
  pe_regular : regular (eff E) (bound_value E) (e_data E) f s e;
  pe_uncut : uncut (bound_value E) (last_time (e_data E)) f s e;
  pe_grid : grid_ok d f s e E;
  pe_begun : begun (bound_value E) (last_time (e_data E)) b f s e }.

(** The conditions of C54. *)
Record kept (w : nat) (E : env Qc) (f : fml Qc) (s e : Qc) : Prop := {
  ke_holding : holding w E;
  ke_formula : timed (bound_value E) w f;
  ke_start : 0 <= s;
  ke_end : s <= e;
  ke_covers : covers (bound_value E) (last_time (e_data E)) f e;
  ke_within : within_of held (eff E) (bound_value E) (e_data E) (e_M E) f;
  ke_samples : at_samples (bound_value E) (e_data E) f s e;
  ke_settled : settled held (eff E) (bound_value E) (e_data E) f s e }.
(** [text_env] with previous-value interpolation. *)
Definition held_env (S : statics Qc) (d : driver Qc) (rows : list (list Qc)) : env Qc := mkEnv SPACE PREVIOUS (s_M S) rows (d_params d).
