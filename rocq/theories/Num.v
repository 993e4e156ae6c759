(** The operations that STLRom performs on [double].

    The model is written against this interface.  Instances:
    - [NumQc]: canonical rationals, used for all value theorems.  No rounding,
      no NaN, no infinity; a division by zero has no result ([None]) and the
      model turns it into the outcome [NonFinite].
    - [NumF] in NumFloat.v: Coq's primitive IEEE 754 binary64 floats, used to
      run the model bit for bit (division is total there). *)
From Coq Require Import QArith Qcanon Bool.

Class Num (T : Type) := {
  n0 : T;                          (* 0.    *)
  n1 : T;                          (* 1.    *)
  nadd : T -> T -> T;              (* +     *)
  nsub : T -> T -> T;              (* -     *)
  nmul : T -> T -> T;              (* *     *)
  nopp : T -> T;                   (* unary - *)
  ndiv : T -> T -> option T;       (* /     *)
  nltb : T -> T -> bool;           (* <     *)
  nleb : T -> T -> bool;           (* <=    *)
  neqb : T -> T -> bool;           (* ==    *)
  nabs : T -> T;                   (* fabs  *)
  neps : T                         (* 1e-14 *)
}.

Definition Qc_eps : Qc := Q2Qc (1 # 100000000000000).

Definition Qc_abs (x : Qc) : Qc :=
  if Qle_bool 0 (this x) then x else Qcopp x.

Global Instance NumQc : Num Qc := {
  n0 := 0%Qc;
  n1 := 1%Qc;
  nadd := Qcplus;
  nsub := Qcminus;
  nmul := Qcmult;
  nopp := Qcopp;
  ndiv := fun x y => if Qeq_bool (this y) 0 then None else Some (Qcdiv x y);
  nltb := fun x y => negb (Qle_bool (this y) (this x));
  nleb := fun x y => Qle_bool (this x) (this y);
  neqb := fun x y => Qeq_bool (this x) (this y);
  nabs := Qc_abs;
  neps := Qc_eps
}.
