(** Boolean satisfaction for any way of reading signals off their samples. *)
From Coq Require Import List String QArith Qcanon.
From Verif Require Import Num Base Signal Transducer Spec StlSpec StepSpec.
Import ListNotations.
Local Open Scope Qc_scope.

(** As [holds] (SatSpec.v), with [reads] in place of linear interpolation. *)
Fixpoint holds_of (reads : list (Qc * Qc) -> Qc -> Qc -> Prop) (weak : bool) (cst : option string -> Qc -> Qc) (val : bound Qc -> Qc)
         (data : list (list Qc)) (f : fml Qc) (t : Qc) : Prop :=
  match f with
  | FAtom l op r => exists a b, expr_of reads cst data l t a /\ expr_of reads cst data r t b /\
      match op, weak with
      | GREATERTHAN, false => b < a
      | GREATERTHAN, true => b <= a
      | LESSTHAN, false => a < b
      | LESSTHAN, true => a <= b
      end
  | FNot c => ~ holds_of reads weak cst val data c t
  | FAnd l r => holds_of reads weak cst val data l t /\ holds_of reads weak cst val data r t
  | FOr l r => holds_of reads weak cst val data l t \/ holds_of reads weak cst val data r t
  | FImp l r => holds_of reads weak cst val data l t -> holds_of reads weak cst val data r t
  | FEv i c => exists u, t + val (ibegin i) <= u /\ u <= t + val (iend i) /\ holds_of reads weak cst val data c u
  | FAlw i c => forall u, t + val (ibegin i) <= u -> u <= t + val (iend i) -> holds_of reads weak cst val data c u
  | FUntil l i r => exists u, t + val (ibegin i) <= u /\ u <= t + val (iend i) /\ holds_of reads weak cst val data r u /\
      forall w, t <= w -> w <= u -> holds_of reads weak cst val data l w
  | _ => False
  end.
