(** Specification vocabulary for until over signals that hold their last value. *)
From Coq Require Import List String QArith Qcanon.
From Verif Require Import Num Base Signal Transducer Spec StlSpec StepSpec.
Import ListNotations.
Local Open Scope Qc_scope.

(** [timed] formulas, and untils over them with windows [0 <= a < b], below not, and, or
    and implies. *)
Fixpoint utimed (val : bound Qc -> Qc) (w : nat) (f : fml Qc) : Prop :=
  match f with
  | FNot c => utimed val w c
  | FAnd l r | FOr l r | FImp l r => utimed val w l /\ utimed val w r
  | FUntil l i r => 0 <= val (ibegin i) /\ val (ibegin i) < val (iend i) /\ timed val w l /\ timed val w r
  | _ => timed val w f
  end.

(** [settled], with this of an until: what holds of the operand of an eventually holds of
    both of its operands, and if it is evaluated at a single instant, then the robustness
    of the right one does not change at the end of the window. *)
Fixpoint usettled (reads : list (Qc * Qc) -> Qc -> Qc -> Prop) (cst : option string -> Qc -> Qc) (val : bound Qc -> Qc)
  (data : list (list Qc)) (f : fml Qc) (s e : Qc) : Prop :=
  match f with
  | FNot c => usettled reads cst val data c s e
  | FAnd l r | FOr l r | FImp l r => usettled reads cst val data l s e /\ usettled reads cst val data r s e
  | FUntil l i r => steady_ends reads cst val data l s (e + val (iend i)) /\
      steady_ends reads cst val data r (s + val (ibegin i)) (e + val (iend i)) /\
      (s = e -> steady reads cst val data r (e + val (iend i)))
  | _ => steady_ends reads cst val data f s e
  end.

(** The same from conditions on times only. *)
Fixpoint uapart (val : bound Qc -> Qc) (data : list (list Qc)) (f : fml Qc) (s e : Qc) : Prop :=
  match f with
  | FNot c => uapart val data c s e
  | FAnd l r | FOr l r | FImp l r => uapart val data l s e /\ uapart val data r s e
  | FUntil l i r => apart_ends val data l s (e + val (iend i)) /\
      apart_ends val data r (s + val (ibegin i)) (e + val (iend i)) /\ (s = e -> apart val data r (e + val (iend i)))
  | _ => apart_ends val data f s e
  end.

(** [at_samples], with the operands of until. *)
Fixpoint uat_samples (val : bound Qc -> Qc) (data : list (list Qc)) (f : fml Qc) (s e : Qc) : Prop :=
  match f with
  | FNot c => uat_samples val data c s e
  | FAnd l r | FOr l r | FImp l r => uat_samples val data l s e /\ uat_samples val data r s e
  | FUntil l i r => at_samples val data l s (e + val (iend i)) /\ at_samples val data r (s + val (ibegin i)) (e + val (iend i))
  | _ => at_samples val data f s e
  end.
