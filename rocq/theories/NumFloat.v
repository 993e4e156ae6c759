(** The instance on IEEE 754 binary64 numbers (Coq's primitive floats). *)
From Coq Require Import PrimFloat.
From Verif Require Import Num.

Definition NumF : Num float := {|
  n0 := 0%float;
  n1 := 1%float;
  nadd := PrimFloat.add;
  nsub := PrimFloat.sub;
  nmul := PrimFloat.mul;
  nopp := PrimFloat.opp;
  ndiv := fun x y => Some (PrimFloat.div x y);
  nltb := PrimFloat.ltb;
  nleb := PrimFloat.leb;
  neqb := PrimFloat.eqb;
  nabs := PrimFloat.abs;
  neps := 0x1.6849b86a12b9bp-47%float  (* the double nearest to 1e-14 *)
|}.
