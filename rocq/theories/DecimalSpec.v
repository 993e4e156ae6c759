(** Independent specification for numbers as they are printed: C57. *)
From Coq Require Import String Ascii ZArith QArith Qabs Qcanon.
From Verif Require Import Num Base Signal Robust Transducer ParserSpec.
Local Open Scope Q_scope.

(** [y] is [x] rounded to six significant digits: with 10^k <= |x| < 10^(k+1) it is a multiple
    of 10^(k-5), at most half of that away, and an even multiple if exactly half. *)
Definition six_digits (x y : Qc) : Prop :=
  (x = 0%Qc /\ y = 0%Qc) \/
  exists k m : Z, (10 # 1) ^ k <= Qabs (this x) /\ Qabs (this x) < (10 # 1) ^ (k + 1) /\
    this y == inject_Z m * (10 # 1) ^ (k - 5) /\
    2 * Qabs (this y - this x) <= (10 # 1) ^ (k - 5) /\
    (2 * Qabs (this y - this x) == (10 # 1) ^ (k - 5) -> Z.even m = true).

(** Formulas that differ in their numbers only, those of the second rounded. *)
Definition six_bound (b b' : bound Qc) : Prop :=
  match bstr b with Some _ => b' = b | None => bstr b' = None /\ six_digits (bnum b) (bnum b') end.
Definition six_interval (i i' : interval Qc) : Prop := six_bound (ibegin i) (ibegin i') /\ six_bound (iend i) (iend i').
Inductive six : fml Qc -> fml Qc -> Prop :=
| D_sig : forall x c, six (FSig x c) (FSig x c)
| D_number : forall v v', six_digits v v' -> six (FConst None v) (FConst None v')
| D_param : forall s v, six (FConst (Some s) v) (FConst (Some s) v)
| D_abs : forall c c', six c c' -> six (FAbs c) (FAbs c')
| D_plus : forall l l' r r', six l l' -> six r r' -> six (FPlus l r) (FPlus l' r')
| D_minus : forall l l' r r', six l l' -> six r r' -> six (FMinus l r) (FMinus l' r')
| D_mult : forall l l' r r', six l l' -> six r r' -> six (FMult l r) (FMult l' r')
| D_atom : forall l l' o r r', six l l' -> six r r' -> six (FAtom l o r) (FAtom l' o r')
| D_not : forall c c', six c c' -> six (FNot c) (FNot c')
| D_and : forall l l' r r', six l l' -> six r r' -> six (FAnd l r) (FAnd l' r')
| D_or : forall l l' r r', six l l' -> six r r' -> six (FOr l r) (FOr l' r')
| D_imp : forall l l' r r', six l l' -> six r r' -> six (FImp l r) (FImp l' r')
| D_ev : forall i i' c c', six_interval i i' -> six c c' -> six (FEv i c) (FEv i' c')
| D_alw : forall i i' c c', six_interval i i' -> six c c' -> six (FAlw i c) (FAlw i' c')
| D_until : forall l l' i i' r r', six l l' -> six_interval i i' -> six r r' -> six (FUntil l i r) (FUntil l' i' r').

(** What a printed number looks like: sign, digits without a leading zero, digits after the point without a trailing zero,
    exponent. *)
Local Open Scope string_scope.
Definition tidy_fraction (f : string) : Prop := f = "" \/ exists t c, f = "." ++ t ++ String c "" /\ all digit t /\ digit c = true /\ c <> "0"%char.
Definition exponent (e : string) : Prop := e = "" \/ exists s x, e = "e" ++ s ++ x /\ (s = "+" \/ s = "-") /\ all digit x /\ (2 <= String.length x)%nat.
Definition tidy (s : string) : Prop :=
  exists sg a f e, s = sg ++ a ++ f ++ e /\ (sg = "" \/ sg = "-") /\ all digit a /\ (a = "0" \/ exists c r, a = String c r /\ c <> "0"%char) /\ tidy_fraction f /\ exponent e.
