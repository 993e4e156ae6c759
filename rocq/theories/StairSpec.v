(** Signals of constant pieces. *)
From Coq Require Import List QArith Qcanon.
From Verif Require Import Num Base Signal Spec.
Import ListNotations.
Local Open Scope Qc_scope.

(** Every piece is constant, times increase, a first sample at the beginning and none
    after the end. *)
Definition stairs (x : signal Qc) : Prop :=
  increasing (samples x) /\ Forall (fun q => deriv q = 0) (samples x) /\
  (exists p l, samples x = p :: l /\ time p = beginTime x) /\ Forall (fun q => time q <= endTime x) (samples x).

(** [g] does not change at [e]. *)
Definition no_jump_at (g : Qc -> Qc) (e : Qc) : Prop := exists d, 0 < d /\ forall u, e - d <= u -> u <= e -> g u = g e.
