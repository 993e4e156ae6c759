(** Specification vocabulary for formulas over signals that hold their last value. *)
From Coq Require Import List String QArith Qcanon.
From Verif Require Import Num Base Signal Transducer Spec StlSpec.
Import ListNotations.
Local Open Scope Qc_scope.

(** The latest point at or before [t]; before the first point, the first one. *)
Definition held (l : list (Qc * Qc)) (t v : Qc) : Prop :=
  previous l t v \/ (exists t0 l', l = (t0, v) :: l' /\ t < t0).

(** Robustness as in [rob], for any way of reading signals off their samples. *)
Section Reading.
Variable reads : list (Qc * Qc) -> Qc -> Qc -> Prop.
Variables (cst : option string -> Qc -> Qc) (val : bound Qc -> Qc) (data : list (list Qc)).

Fixpoint expr_of (f : fml Qc) (t v : Qc) : Prop :=
  match f with
  | FSig _ c => reads (column data c) t v
  | FConst p w => v = cst p w
  | FAbs c => exists a, expr_of c t a /\ v = qmax a (- a)
  | FPlus l r => exists a b, expr_of l t a /\ expr_of r t b /\ v = a + b
  | FMinus l r => exists a b, expr_of l t a /\ expr_of r t b /\ v = a - b
  | FMult l r => exists a b, expr_of l t a /\ expr_of r t b /\ v = a * b
  | _ => False
  end.

Fixpoint rob_of (f : fml Qc) (t v : Qc) : Prop :=
  match f with
  | FAtom l GREATERTHAN r => exists a b, expr_of l t a /\ expr_of r t b /\ v = a - b
  | FAtom l LESSTHAN r => exists a b, expr_of l t a /\ expr_of r t b /\ v = b - a
  | FNot c => exists w, rob_of c t w /\ v = - w
  | FAnd l r => exists a b, rob_of l t a /\ rob_of r t b /\ v = qmin a b
  | FOr l r => exists a b, rob_of l t a /\ rob_of r t b /\ v = qmax a b
  | FImp l r => exists a b, rob_of l t a /\ rob_of r t b /\ v = qmax (- a) b
  | FEv i c => exists g, (forall u, t + val (ibegin i) <= u -> u <= t + val (iend i) -> rob_of c u (g u)) /\
                 is_sup g (t + val (ibegin i)) (t + val (iend i)) v
  | FAlw i c => exists g, (forall u, t + val (ibegin i) <= u -> u <= t + val (iend i) -> rob_of c u (g u)) /\
                 is_inf g (t + val (ibegin i)) (t + val (iend i)) v
  | FUntil l i r => exists gl gr h,
      (forall u, t <= u -> u <= t + val (iend i) -> rob_of l u (gl u)) /\
      (forall u, t + val (ibegin i) <= u -> u <= t + val (iend i) -> rob_of r u (gr u)) /\
      (forall u, t + val (ibegin i) <= u -> u <= t + val (iend i) -> is_inf gl t u (h u)) /\
      is_sup (fun u => qmin (gr u) (h u)) (t + val (ibegin i)) (t + val (iend i)) v
  | _ => False
  end.

(** Every atom of [f] stays within [M]. *)
Fixpoint within_of (M : Qc) (f : fml Qc) : Prop :=
  match f with
  | FAtom _ _ _ => forall t v, rob_of f t v -> - M <= v /\ v <= M
  | FNot c => within_of M c
  | FAnd l r | FOr l r | FImp l r => within_of M l /\ within_of M r
  | FEv _ c | FAlw _ c => within_of M c
  | FUntil l _ r => within_of M l /\ within_of M r
  | _ => True
  end.

(** The robustness of [f] does not change at the instant [e]. *)
Definition steady (f : fml Qc) (e : Qc) : Prop :=
  exists d, 0 < d /\ forall u v v', e - d <= u -> u <= e -> rob_of f u v -> rob_of f e v' -> v = v'.

(** [f] is evaluated for every start in [s, e]: the operands of each of its binary
    operators do not change at the end of the interval over which they are evaluated,
    unless that is a single instant. *)
Fixpoint steady_ends (f : fml Qc) (s e : Qc) : Prop :=
  match f with
  | FNot c => steady_ends c s e
  | FAnd l r | FOr l r | FImp l r => (s = e \/ (steady l e /\ steady r e)) /\ steady_ends l s e /\ steady_ends r s e
  | FEv i c | FAlw i c => steady_ends c (s + val (ibegin i)) (e + val (iend i))
  | _ => True
  end.
(** The same, of the operators below an eventually or always only. *)
Fixpoint settled (f : fml Qc) (s e : Qc) : Prop :=
  match f with
  | FNot c => settled c s e
  | FAnd l r | FOr l r | FImp l r => settled l s e /\ settled r s e
  | _ => steady_ends f s e
  end.
End Reading.

(** Not, and, or, implies, eventually and always over comparisons of any expressions;
    windows [0 <= a <= b]. *)
Fixpoint timed (val : bound Qc -> Qc) (w : nat) (f : fml Qc) : Prop :=
  match f with
  | FAtom l _ r => expression w l /\ expression w r
  | FNot c => timed val w c
  | FAnd l r | FOr l r | FImp l r => timed val w l /\ timed val w r
  | FEv i c | FAlw i c => 0 <= val (ibegin i) /\ val (ibegin i) <= val (iend i) /\ timed val w c
  | _ => False
  end.

(** No sample of the data falls on [e], nor on what becomes of it through the windows of
    [f]: a condition on times only, under which the robustness is steady. *)
Fixpoint apart (val : bound Qc -> Qc) (data : list (list Qc)) (f : fml Qc) (e : Qc) : Prop :=
  match f with
  | FAtom _ _ _ => ~ In e (map row_time data)
  | FNot c => apart val data c e
  | FAnd l r | FOr l r | FImp l r => apart val data l e /\ apart val data r e
  | FEv i c | FAlw i c => apart val data c (e + val (ibegin i)) /\ apart val data c (e + val (iend i))
  | _ => False
  end.
Fixpoint apart_ends (val : bound Qc -> Qc) (data : list (list Qc)) (f : fml Qc) (s e : Qc) : Prop :=
  match f with
  | FNot c => apart_ends val data c s e
  | FAnd l r | FOr l r | FImp l r => (s = e \/ (apart val data l e /\ apart val data r e)) /\ apart_ends val data l s e /\ apart_ends val data r s e
  | FEv i c | FAlw i c => apart_ends val data c (s + val (ibegin i)) (e + val (iend i))
  | _ => True
  end.

(** The evaluation interval of a comparison whose left side is an arithmetic expression
    ends at a sample of the data, or is a single instant. *)
Fixpoint at_samples (val : bound Qc -> Qc) (data : list (list Qc)) (f : fml Qc) (s e : Qc) : Prop :=
  match f with
  | FAtom l _ _ => is_leaf l \/ In e (map row_time data) \/ s = e
  | FNot c => at_samples val data c s e
  | FAnd l r | FOr l r | FImp l r => at_samples val data l s e /\ at_samples val data r s e
  | FEv i c | FAlw i c => at_samples val data c (s + val (ibegin i)) (e + val (iend i))
  | _ => True
  end.
