(** IEEE doubles and the numbers they stand for. *)
From Coq Require Import List String ZArith QArith Qcanon Bool PrimFloat SpecFloat FloatOps.
From Verif Require Import Num NumFloat Base Signal Transducer TreeProof.
Import ListNotations.

(** Neither an infinity nor a NaN. *)
Definition finite (x : float) : Prop :=
  match Prim2SF x with S754_zero _ | S754_finite _ _ _ => True | _ => False end.

(** The rational number a finite double is. *)
Definition qval (x : float) : Qc :=
  match Prim2SF x with
  | S754_finite s m e =>
      let n := if s then Zneg m else Zpos m in
      Q2Qc (match e with
            | Z0 => n # 1
            | Zpos p => (n * 2 ^ Zpos p) # 1
            | Zneg p => n # (2 ^ p)
            end)
  | _ => 0%Qc
  end.

(** [x] is finite and stands for [q]. *)
Definition den (x : float) (q : Qc) : Prop := finite x /\ qval x = q.

(** [q] is the number of a double. *)
Definition representable (q : Qc) : Prop := exists x, den x q.

(** [x] is a double nearest to [q] and has the sign of [q]. *)
Definition rounds (x : float) (q : Qc) : Prop :=
  finite x /\ (forall y, finite y -> (Qc_abs (qval x - q) <= Qc_abs (qval y - q))%Qc) /\
  ((0 < q)%Qc -> (0 < qval x)%Qc) /\ ((q < 0)%Qc -> (qval x < 0)%Qc).

(** [q] is a multiple m / 2^k with |m| <= b. *)
Definition on_grid (k b : Z) (q : Qc) : Prop :=
  exists m, (Z.abs m <= b)%Z /\ q = Q2Qc (m # Z.to_pos (2 ^ k)).

(** [x] is finite and such a multiple. *)
Definition fixed (k b : Z) (x : float) : Prop := finite x /\ on_grid k b (qval x).

(** ** Formulas and data as exact numbers *)
Definition bound_q (b : bound float) : bound Qc := mkB (qval (bnum b)) (bstr b).
Definition interval_q (i : interval float) : interval Qc := mkI (bound_q (ibegin i)) (bound_q (iend i)).
Fixpoint fml_q (f : fml float) : fml Qc :=
  match f with
  | FSig x c => FSig x c
  | FConst p v => FConst p (qval v)
  | FAbs c => FAbs (fml_q c)
  | FPlus l r => FPlus (fml_q l) (fml_q r)
  | FMinus l r => FMinus (fml_q l) (fml_q r)
  | FMult l r => FMult (fml_q l) (fml_q r)
  | FAtom l op r => FAtom (fml_q l) op (fml_q r)
  | FNot c => FNot (fml_q c)
  | FAnd l r => FAnd (fml_q l) (fml_q r)
  | FOr l r => FOr (fml_q l) (fml_q r)
  | FImp l r => FImp (fml_q l) (fml_q r)
  | FEv i c => FEv (interval_q i) (fml_q c)
  | FAlw i c => FAlw (interval_q i) (fml_q c)
  | FUntil l i r => FUntil (fml_q l) (interval_q i) (fml_q r)
  end.
Definition env_q (E : env float) : env Qc :=
  mkEnv (e_sem E) (e_ip E) (qval (e_M E)) (map (map qval) (e_data E)) (map (fun kv => (fst kv, qval (snd kv))) (e_params E)).

(** ** Formulas on which double arithmetic is exact *)

(** Nesting depth of eventually, always and until. *)
Fixpoint nesting {T} (f : fml T) : nat :=
  match f with
  | FSig _ _ | FConst _ _ | FAbs _ | FPlus _ _ | FMinus _ _ | FMult _ _ | FAtom _ _ _ => 0
  | FNot c => nesting c
  | FAnd l r | FOr l r | FImp l r => Nat.max (nesting l) (nesting r)
  | FEv _ c | FAlw _ c => S (nesting c)
  | FUntil l _ r => S (Nat.max (nesting l) (nesting r))
  end.

(** Arithmetic expressions; formulas over comparisons of them, as the parser builds them. *)
Fixpoint arithmetic {T} (f : fml T) : Prop :=
  match f with
  | FSig _ _ | FConst _ _ => True
  | FAbs c => arithmetic c
  | FPlus l r | FMinus l r | FMult l r => arithmetic l /\ arithmetic r
  | _ => False
  end.
Fixpoint logical {T} (f : fml T) : Prop :=
  match f with
  | FAtom l _ r => arithmetic l /\ arithmetic r
  | FNot c | FEv _ c | FAlw _ c => logical c
  | FAnd l r | FOr l r | FImp l r | FUntil l _ r => logical l /\ logical r
  | _ => False
  end.

(** The constants of [f] are finite, its window bounds multiples of 1 / 2^k up to w / 2^k. *)
Fixpoint plain_numbers (E : env float) (k w : Z) (f : fml float) : Prop :=
  match f with
  | FSig _ _ => True
  | FConst p v => finite (@eff float NumF E p v)
  | FAbs c | FNot c => plain_numbers E k w c
  | FPlus l r | FMinus l r | FMult l r | FAtom l _ r | FAnd l r | FOr l r | FImp l r => plain_numbers E k w l /\ plain_numbers E k w r
  | FEv i c | FAlw i c => fixed k w (bound_value E (ibegin i)) /\ fixed k w (bound_value E (iend i)) /\ plain_numbers E k w c
  | FUntil l i r => fixed k w (bound_value E (ibegin i)) /\ fixed k w (bound_value E (iend i)) /\ plain_numbers E k w l /\ plain_numbers E k w r
  end.

(** The values an expression can take over the data, its operands read at any instants (and
    0, the value of a signal that has no samples). *)
Fixpoint taken (E : env Qc) (f : fml Qc) : Qc -> Prop :=
  match f with
  | FSig _ c => fun q => q = 0%Qc \/ exists row, In row (e_data E) /\ nth_error row c = Some q
  | FConst p v => fun q => q = 0%Qc \/ q = eff E p v
  | FAbs c => fun q => exists x, taken E c x /\ q = nabs x
  | FPlus l r => fun q => exists x y, taken E l x /\ taken E r y /\ q = (x + y)%Qc
  | FMinus l r => fun q => exists x y, taken E l x /\ taken E r y /\ q = (x - y)%Qc
  | FMult l r => fun q => exists x y, taken E l x /\ taken E r y /\ q = (x * y)%Qc
  | _ => fun _ => False
  end.
(** The sums, differences and products of [f], and the differences of its comparisons, need
    no rounding. *)
Fixpoint no_rounding (E : env Qc) (f : fml Qc) : Prop :=
  match f with
  | FSig _ _ | FConst _ _ => True
  | FAbs c | FNot c | FEv _ c | FAlw _ c => no_rounding E c
  | FPlus l r => no_rounding E l /\ no_rounding E r /\ (forall x y, taken E l x -> taken E r y -> representable (x + y))
  | FMinus l r | FAtom l _ r => no_rounding E l /\ no_rounding E r /\ (forall x y, taken E l x -> taken E r y -> representable (x - y))
  | FMult l r => no_rounding E l /\ no_rounding E r /\ (forall x y, taken E l x -> taken E r y -> representable (x * y))
  | FAnd l r | FOr l r | FImp l r | FUntil l _ r => no_rounding E l /\ no_rounding E r
  end.

(** The same of the operands of the comparisons; the differences may need rounding. *)
Fixpoint exact_operands (E : env Qc) (f : fml Qc) : Prop :=
  match f with
  | FAtom l _ r => no_rounding E l /\ no_rounding E r
  | FNot c | FEv _ c | FAlw _ c => exact_operands E c
  | FAnd l r | FOr l r | FImp l r | FUntil l _ r => exact_operands E l /\ exact_operands E r
  | _ => True
  end.

(** ** Expressions over numbers with few binary digits *)

(** The signals and constants of [f] are multiples of 1 / 2^j up to v / 2^j. *)
Fixpoint on_binary_values (E : env float) (j v : Z) (f : fml float) : Prop :=
  match f with
  | FSig _ c => Forall (fun row => forall x, nth_error row c = Some x -> fixed j v x) (e_data E)
  | FConst p a => fixed j v (@eff float NumF E p a)
  | FAbs c | FNot c | FEv _ c | FAlw _ c => on_binary_values E j v c
  | FPlus l r | FMinus l r | FMult l r | FAtom l _ r | FAnd l r | FOr l r | FImp l r | FUntil l _ r =>
      on_binary_values E j v l /\ on_binary_values E j v r
  end.
(** Then the expression [f] is a multiple of 1 / 2^p up to a / 2^p for [(p, a) = digits j v f]. *)
Fixpoint digits {T} (j v : Z) (f : fml T) : Z * Z :=
  match f with
  | FSig _ _ | FConst _ _ => (j, v)
  | FAbs c => digits j v c
  | FMult l r => let (p1, a1) := digits j v l in let (p2, a2) := digits j v r in (p1 + p2, a1 * a2)%Z
  | FPlus l r | FMinus l r | FAtom l _ r =>
      let (p1, a1) := digits j v l in let (p2, a2) := digits j v r in
      let p := Z.max p1 p2 in (p, a1 * 2 ^ (p - p1) + a2 * 2 ^ (p - p2))%Z
  | _ => (j, v)
  end.
(** All expressions of [f] fit into the 53 binary digits of a double. *)
Fixpoint fits {T} (j v : Z) (f : fml T) : Prop :=
  match f with
  | FSig _ _ | FConst _ _ => True
  | FAbs c | FNot c | FEv _ c | FAlw _ c => fits j v c
  | FPlus l r | FMinus l r | FMult l r | FAtom l _ r =>
      fits j v l /\ fits j v r /\ (fst (digits j v f) <= 1074)%Z /\ (snd (digits j v f) < 2 ^ 53)%Z
  | FAnd l r | FOr l r | FImp l r | FUntil l _ r => fits j v l /\ fits j v r
  end.

(** An evaluation over held signals whose times are multiples of 1 / 2^k: those of the data
    and of the evaluation up to b / 2^k, those of the windows up to w / 2^k. *)
Record on_binary_times (k b w : Z) (E : env float) (f : fml float) (s e : float) : Prop := {
  bt_held : e_ip E = PREVIOUS;
  bt_space : e_sem E = SPACE;
  bt_unit : (0 <= k <= 44)%Z;
  bt_width : (0 <= w)%Z;
  bt_size : (b + 16 * w * (Z.of_nat (nesting f) + 1) < 2 ^ 50)%Z;
  bt_big : finite (e_M E);
  bt_data : Forall (fun row => Forall finite row /\ forall t, nth_error row 0 = Some t -> fixed k b t) (e_data E);
  bt_start : fixed k b s;
  bt_end : fixed k b e;
  bt_numbers : plain_numbers E k w f;
  bt_formula : logical f }.

(** Same outcome; the three numbers are those of exact arithmetic. *)
Definition agrees (r : res (float * float * float)) (r' : res (Qc * Qc * Qc)) : Prop :=
  match r, r' with
  | Ok (v, lo, up), Ok (v', lo', up') => den v v' /\ den lo lo' /\ den up up'
  | UB, UB | Exn, Exn | NonFinite, NonFinite | OutOfFuel, OutOfFuel => True
  | _, _ => False
  end.
