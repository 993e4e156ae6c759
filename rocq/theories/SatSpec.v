(** Boolean satisfaction and perturbed traces. *)
From Coq Require Import List String QArith Qcanon.
From Verif Require Import Num Base Signal Transducer Spec StlSpec.
Import ListNotations.
Local Open Scope Qc_scope.

(** [holds weak cst val data f t]: the trace satisfies [f] at [t].  Comparisons are not
    strict if [weak]. *)
Fixpoint holds (weak : bool) (cst : option string -> Qc -> Qc) (val : bound Qc -> Qc) (data : list (list Qc))
         (f : fml Qc) (t : Qc) : Prop :=
  match f with
  | FAtom l op r => exists a b, expr cst data l t a /\ expr cst data r t b /\
      match op, weak with
      | GREATERTHAN, false => b < a
      | GREATERTHAN, true => b <= a
      | LESSTHAN, false => a < b
      | LESSTHAN, true => a <= b
      end
  | FNot c => ~ holds weak cst val data c t
  | FAnd l r => holds weak cst val data l t /\ holds weak cst val data r t
  | FOr l r => holds weak cst val data l t \/ holds weak cst val data r t
  | FImp l r => holds weak cst val data l t -> holds weak cst val data r t
  | FEv i c => exists u, t + val (ibegin i) <= u /\ u <= t + val (iend i) /\ holds weak cst val data c u
  | FAlw i c => forall u, t + val (ibegin i) <= u -> u <= t + val (iend i) -> holds weak cst val data c u
  | FUntil l i r => exists u, t + val (ibegin i) <= u /\ u <= t + val (iend i) /\ holds weak cst val data r u /\
      forall w, t <= w -> w <= u -> holds weak cst val data l w
  | _ => False
  end.

(** Two traces with the same times, no value of the one further than [d] from the other's. *)
Definition near (d : Qc) (data data' : list (list Qc)) : Prop :=
  Forall2 (fun r r' => row_time r = row_time r' /\
    forall c, (0 < c)%nat -> nth c r 0 - nth c r' 0 <= d /\ nth c r' 0 - nth c r 0 <= d) data data'.

(** The value of an expression without signals. *)
Fixpoint const_value (cst : option string -> Qc -> Qc) (f : fml Qc) : Qc :=
  match f with
  | FConst p v => cst p v
  | FAbs c => qmax (const_value cst c) (- const_value cst c)
  | FPlus l r => const_value cst l + const_value cst r
  | FMinus l r => const_value cst l - const_value cst r
  | FMult l r => const_value cst l * const_value cst r
  | _ => 0
  end.
Definition magnitude (x : Qc) : Qc := qmax x (- x).

(** By how much more than the signals an expression or a robustness can change. *)
Fixpoint gain (cst : option string -> Qc -> Qc) (f : fml Qc) : Qc :=
  match f with
  | FSig _ _ => 1
  | FConst _ _ => 0
  | FAbs c | FNot c => gain cst c
  | FPlus l r | FMinus l r | FAtom l _ r => gain cst l + gain cst r
  | FMult l r => magnitude (const_value cst l) * gain cst r + gain cst l * magnitude (const_value cst r)
  | FAnd l r | FOr l r | FImp l r | FUntil l _ r => qmax (gain cst l) (gain cst r)
  | FEv _ c | FAlw _ c => gain cst c
  end.

(** Every comparison of [f] is between sums, differences and multiples of signals. *)
Fixpoint linear_atoms (w : nat) (f : fml Qc) : Prop :=
  match f with
  | FAtom _ _ _ => comparison w f
  | FNot c | FEv _ c | FAlw _ c => linear_atoms w c
  | FAnd l r | FOr l r | FImp l r | FUntil l _ r => linear_atoms w l /\ linear_atoms w r
  | _ => False
  end.
