(** The number a decimal text denotes, exactly: what strtod and operator>> compute before
    rounding (tools.h:19-29, tools.cpp:117-122).  Used to instantiate the parser on rationals. *)
From Coq Require Import List Bool String Ascii ZArith QArith Qcanon.
From Verif Require Import Num Base Signal Robust Transducer Driver Tables Parser.
Local Open Scope string_scope.
Local Open Scope Z_scope.

(** Digits to an integer, after the digits already read. *)
Fixpoint digits (acc : Z) (s : string) : Z :=
  match s with EmptyString => acc | String c s' => digits (10 * acc + (code c - 48)) s' end.

Definition scaled (m : Z) (e : Z) : Qc :=
  if 0 <=? e then Q2Qc (inject_Z (m * 10 ^ e)) else Q2Qc (m # Z.to_pos (10 ^ (- e))).

(** digits [. digits] [e [sign] digits], with a digit before the exponent; [None] otherwise. *)
Definition magnitude (s : string) : option Qc :=
  let '(a, r) := span is_digit s in
  let '(f, r) := match r with
                 | String c r' => if code c =? 46 then span is_digit r' else ("", r)
                 | EmptyString => ("", r)
                 end in
  let m := digits (digits 0 a) f in
  let k := - Z.of_nat (String.length f) in
  if String.eqb (a ++ f) "" then None
  else match r with
  | EmptyString => Some (scaled m k)
  | String c r' =>
      if (code c =? 101) || (code c =? 69) then
        let '(sg, r') := match r' with
                         | String d r'' => if code d =? 45 then (-1, r'') else if code d =? 43 then (1, r'') else (1, r')
                         | EmptyString => (1, r')
                         end in
        let '(x, r') := span is_digit r' in
        if String.eqb x "" then None
        else if String.eqb r' "" then Some (scaled m (k + sg * digits 0 x)) else None
      else None
  end.
Definition decimal (s : string) : option Qc :=
  match s with
  | String c s' =>
      if code c =? 45 then match magnitude s' with Some v => Some (Qcopp v) | None => None end
      else if code c =? 43 then magnitude s'
      else magnitude s
  | EmptyString => None
  end.

(** operator<< of a double with the default settings (%g with 6 digits), on exact numbers:
    how constants are printed (signal_expr.h:61-65, interval.cpp:39-53). *)
Fixpoint digits_of (fuel : nat) (n : Z) (acc : string) : string :=
  match fuel with
  | O => acc
  | S k =>
      let acc := String (ascii_of_nat (48 + Z.to_nat (n mod 10))) acc in
      if n <? 10 then acc else digits_of k (n / 10) acc
  end.
Definition integer (n : Z) : string := digits_of (S (Z.to_nat (Z.log2 n))) n "".
Definition half_even (n d : Z) : Z :=
  let q := n / d in let r := n mod d in
  if (2 * r <? d) || ((2 * r =? d) && Z.even q) then q else q + 1.
Definition pow10 (n : Z) (e : Z) : Z * Z := if 0 <=? e then (n * 10 ^ e, 1) else (n, 10 ^ (- e)).
Fixpoint no_zeros (l : list ascii) : list ascii :=
  match l with c :: l' => if code c =? 48 then no_zeros l' else l | nil => nil end.
(** Digits after the point, without trailing zeros; no point if none is left. *)
Definition fraction (s : string) : string :=
  match string_of_list_ascii (rev (no_zeros (rev (list_ascii_of_string s)))) with
  | EmptyString => ""
  | t => String "." t
  end.
Definition general (n d : Z) : string :=
  let x0 := Z.of_nat (String.length (integer n)) - Z.of_nat (String.length (integer d)) in
  let '(a, b) := pow10 1 x0 in
  let x := if a * d <=? n * b then x0 else x0 - 1 in
  let '(a, b) := pow10 1 (5 - x) in
  let m := half_even (n * a) (d * b) in
  let '(m, x) := if m =? 1000000 then (100000, x + 1) else (m, x) in
  let ds := integer m in
  if (-4 <=? x) && (x <? 6) then
    if x <? 0 then "0" ++ fraction (string_of_list_ascii (repeat "0"%char (Z.to_nat (-x - 1))) ++ ds)
    else substring 0 (Z.to_nat (x + 1)) ds ++ fraction (substring (Z.to_nat (x + 1)) 6 ds)
  else
    let e := integer (Z.abs x) in
    substring 0 1 ds ++ fraction (substring 1 6 ds) ++ "e" ++ (if x <? 0 then "-" else "+") ++ (if Z.abs x <? 10 then "0" else "") ++ e.
Definition show6 (v : Qc) : string :=
  let n := Qnum (this v) in
  let d := Zpos (Qden (this v)) in
  if n =? 0 then "0" else if n <? 0 then "-" ++ general (- n) d else general n d.
