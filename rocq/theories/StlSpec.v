(** Specification vocabulary for formulas.  Refers only to the data type [fml]. *)
From Coq Require Import List String QArith Qcanon.
From Verif Require Import Num Base Signal Transducer Spec.
Import ListNotations.

Section Subst.
Context {T : Type}.

(** Replace the parameters that [rho] assigns by their values. *)
Definition subst_bound (rho : string -> option T) (b : bound T) : bound T :=
  match bstr b with
  | None => b
  | Some k => match rho k with Some v => mkB v None | None => b end
  end.
Definition subst_interval (rho : string -> option T) (i : interval T) : interval T :=
  mkI (subst_bound rho (ibegin i)) (subst_bound rho (iend i)).

Fixpoint subst (rho : string -> option T) (f : fml T) : fml T :=
  match f with
  | FSig v c => FSig v c
  | FConst None v => FConst None v
  | FConst (Some k) v => match rho k with Some w => FConst None w | None => FConst (Some k) v end
  | FAbs c => FAbs (subst rho c)
  | FPlus l r => FPlus (subst rho l) (subst rho r)
  | FMinus l r => FMinus (subst rho l) (subst rho r)
  | FMult l r => FMult (subst rho l) (subst rho r)
  | FAtom l op r => FAtom (subst rho l) op (subst rho r)
  | FNot c => FNot (subst rho c)
  | FAnd l r => FAnd (subst rho l) (subst rho r)
  | FOr l r => FOr (subst rho l) (subst rho r)
  | FImp l r => FImp (subst rho l) (subst rho r)
  | FEv i c => FEv (subst_interval rho i) (subst rho c)
  | FAlw i c => FAlw (subst_interval rho i) (subst rho c)
  | FUntil l i r => FUntil (subst rho l) (subst_interval rho i) (subst rho r)
  end.

End Subst.

(** ** Horizons

    Occurrences of subformulas are named by the path to them: [false] is the left
    or only child, [true] the right child. *)
Section Horizon.
Local Open Scope Qc_scope.

Definition offset (d : bool) (a b : Qc) (x : list bool * (Qc * Qc)) : list bool * (Qc * Qc) :=
  (d :: fst x, (a + fst (snd x), b + snd (snd x))).

(** For every occurrence, how much later than the whole formula it has to be
    known from and until; [val] gives the interval bounds. *)
Fixpoint offsets (val : bound Qc -> Qc) (f : fml Qc) : list (list bool * (Qc * Qc)) :=
  ([], (0, 0)) ::
  match f with
  | FSig _ _ | FConst _ _ => []
  | FAbs c | FNot c => map (offset false 0 0) (offsets val c)
  | FPlus l r | FMinus l r | FMult l r | FAtom l _ r | FAnd l r | FOr l r | FImp l r =>
      map (offset false 0 0) (offsets val l) ++ map (offset true 0 0) (offsets val r)
  | FEv i c | FAlw i c => map (offset false (val (ibegin i)) (val (iend i))) (offsets val c)
  | FUntil l i r =>
      map (offset false 0 (val (iend i))) (offsets val l) ++
      map (offset true (val (ibegin i)) (val (iend i))) (offsets val r)
  end.

End Horizon.

(** ** Quantitative semantics on sampled data *)
Section Sem.
Local Open Scope Qc_scope.

(** Rows of a trace: the time, then one entry per signal. *)
Definition row_time (r : list Qc) : Qc := nth 0 r 0.
Definition column (data : list (list Qc)) (c : nat) : list (Qc * Qc) :=
  map (fun r => (row_time r, nth c r 0)) data.

(** Times increase strictly and every row has a time and at least [w] entries. *)
Definition trace (w : nat) (data : list (list Qc)) : Prop :=
  data <> [] /\ rising (column data 0) /\ Forall (fun r => (w < List.length r)%nat) data.

(** The value of a simple operand: a signal, interpolated; or a constant. *)
Definition operand (cst : option string -> Qc -> Qc) (data : list (list Qc)) (f : fml Qc) (t v : Qc) : Prop :=
  match f with
  | FSig _ c => linear (column data c) t v
  | FConst p w => v = cst p w
  | _ => False
  end.

(** Signal expressions with columns up to [w]. *)
Fixpoint expression (w : nat) (f : fml Qc) : Prop :=
  match f with
  | FSig _ c => (1 <= c <= w)%nat
  | FConst _ _ => True
  | FAbs c => expression w c
  | FPlus l r | FMinus l r | FMult l r => expression w l /\ expression w r
  | _ => False
  end.
(** The value of an expression over interpolated operands. *)
Fixpoint expr (cst : option string -> Qc -> Qc) (data : list (list Qc)) (f : fml Qc) (t v : Qc) : Prop :=
  match f with
  | FSig _ _ | FConst _ _ => operand cst data f t v
  | FAbs c => exists a, expr cst data c t a /\ v = qmax a (- a)
  | FPlus l r => exists a b, expr cst data l t a /\ expr cst data r t b /\ v = a + b
  | FMinus l r => exists a b, expr cst data l t a /\ expr cst data r t b /\ v = a - b
  | FMult l r => exists a b, expr cst data l t a /\ expr cst data r t b /\ v = a * b
  | _ => False
  end.
(** Expressions without a signal; and sums, differences and multiples of signals. *)
Fixpoint fixed (f : fml Qc) : Prop :=
  match f with
  | FConst _ _ => True
  | FAbs c => fixed c
  | FPlus l r | FMinus l r | FMult l r => fixed l /\ fixed r
  | _ => False
  end.
Fixpoint affine (f : fml Qc) : Prop :=
  match f with
  | FSig _ _ | FConst _ _ => True
  | FPlus l r | FMinus l r => affine l /\ affine r
  | FMult l r => (fixed l /\ affine r) \/ (affine l /\ fixed r)
  | FAbs c => fixed c
  | _ => False
  end.

(** [rob cst val data f t v]: the robustness of [f] at [t] is [v].  [cst] and [val]
    give the numbers of constants and interval bounds. *)
Fixpoint rob (cst : option string -> Qc -> Qc) (val : bound Qc -> Qc) (data : list (list Qc))
         (f : fml Qc) (t v : Qc) : Prop :=
  match f with
  | FAtom l GREATERTHAN r => exists a b, expr cst data l t a /\ expr cst data r t b /\ v = a - b
  | FAtom l LESSTHAN r => exists a b, expr cst data l t a /\ expr cst data r t b /\ v = b - a
  | FNot c => exists w, rob cst val data c t w /\ v = - w
  | FAnd l r => exists a b, rob cst val data l t a /\ rob cst val data r t b /\ v = qmin a b
  | FOr l r => exists a b, rob cst val data l t a /\ rob cst val data r t b /\ v = qmax a b
  | FImp l r => exists a b, rob cst val data l t a /\ rob cst val data r t b /\ v = qmax (- a) b
  | FEv i c => exists g, (forall u, t + val (ibegin i) <= u -> u <= t + val (iend i) -> rob cst val data c u (g u)) /\
                 is_sup g (t + val (ibegin i)) (t + val (iend i)) v
  | FAlw i c => exists g, (forall u, t + val (ibegin i) <= u -> u <= t + val (iend i) -> rob cst val data c u (g u)) /\
                 is_inf g (t + val (ibegin i)) (t + val (iend i)) v
  | FUntil l i r => exists gl gr h,
      (forall u, t <= u -> u <= t + val (iend i) -> rob cst val data l u (gl u)) /\
      (forall u, t + val (ibegin i) <= u -> u <= t + val (iend i) -> rob cst val data r u (gr u)) /\
      (forall u, t + val (ibegin i) <= u -> u <= t + val (iend i) -> is_inf gl t u (h u)) /\
      is_sup (fun u => qmin (gr u) (h u)) (t + val (ibegin i)) (t + val (iend i)) v
  | _ => False
  end.

(** Formulas over simple operands with columns up to [w] and windows [0 <= a <= b];
    no until. *)
Definition simple_operand (w : nat) (f : fml Qc) : Prop :=
  match f with
  | FSig _ c => (1 <= c <= w)%nat
  | FConst _ _ => True
  | _ => False
  end.
Fixpoint frag (val : bound Qc -> Qc) (w : nat) (f : fml Qc) : Prop :=
  match f with
  | FAtom l _ r => simple_operand w l /\ simple_operand w r
  | FNot c => frag val w c
  | FAnd l r | FOr l r | FImp l r => frag val w l /\ frag val w r
  | FEv i c | FAlw i c => 0 <= val (ibegin i) /\ val (ibegin i) <= val (iend i) /\ frag val w c
  | _ => False
  end.
(** The same over sums, differences and multiples of signals. *)
Fixpoint afrag (val : bound Qc -> Qc) (w : nat) (f : fml Qc) : Prop :=
  match f with
  | FAtom l _ r => (expression w l /\ expression w r) /\ affine l /\ affine r
  | FNot c => afrag val w c
  | FAnd l r | FOr l r | FImp l r => afrag val w l /\ afrag val w r
  | FEv i c | FAlw i c => 0 <= val (ibegin i) /\ val (ibegin i) <= val (iend i) /\ afrag val w c
  | _ => False
  end.

(** A single comparison. *)
Definition comparison (w : nat) (f : fml Qc) : Prop :=
  match f with
  | FAtom l _ r => (expression w l /\ expression w r) /\ affine l /\ affine r
  | _ => False
  end.
(** Until with a proper window between two of the formulas above, under not, and, or, => and
    next to such formulas. *)
Fixpoint ufrag (val : bound Qc -> Qc) (w : nat) (f : fml Qc) : Prop :=
  match f with
  | FNot c => ufrag val w c
  | FAnd l r | FOr l r | FImp l r => ufrag val w l /\ ufrag val w r
  | FUntil l i r => 0 <= val (ibegin i) /\ val (ibegin i) < val (iend i) /\ afrag val w l /\ afrag val w r
  | _ => afrag val w f
  end.

(** Formulas over expressions, without until; no window ends before 0. *)
Fixpoint no_until (val : bound Qc -> Qc) (w : nat) (f : fml Qc) : Prop :=
  match f with
  | FAtom l _ r => expression w l /\ expression w r
  | FNot c => no_until val w c
  | FAnd l r | FOr l r | FImp l r => no_until val w l /\ no_until val w r
  | FEv i c | FAlw i c => 0 <= val (iend i) /\ no_until val w c
  | _ => False
  end.

(** Formulas over expressions in which no window ends before 0. *)
Fixpoint windowed (val : bound Qc -> Qc) (w : nat) (f : fml Qc) : Prop :=
  match f with
  | FAtom l _ r => expression w l /\ expression w r
  | FNot c => windowed val w c
  | FAnd l r | FOr l r | FImp l r => windowed val w l /\ windowed val w r
  | FEv i c | FAlw i c => 0 <= val (iend i) /\ windowed val w c
  | FUntil l i r => 0 <= val (iend i) /\ windowed val w l /\ windowed val w r
  | _ => False
  end.

(** The last time of the data. *)
Definition last_time (data : list (list Qc)) : Qc := last (map row_time data) 0.

(** The data reaches the end of the horizon of every atom of [f] evaluated until [e]. *)
Fixpoint covers (val : bound Qc -> Qc) (T : Qc) (f : fml Qc) (e : Qc) : Prop :=
  match f with
  | FAtom _ _ _ => e <= T
  | FNot c => covers val T c e
  | FAnd l r | FOr l r | FImp l r => covers val T l e /\ covers val T r e
  | FEv i c | FAlw i c => covers val T c (e + val (iend i))
  | FUntil l i r => covers val T l (e + val (iend i)) /\ covers val T r (e + val (iend i))
  | _ => True
  end.

(** The data reaches the start of the horizon of every atom of [f] evaluated from [s]. *)
Fixpoint started (val : bound Qc -> Qc) (T : Qc) (f : fml Qc) (s : Qc) : Prop :=
  match f with
  | FAtom _ _ _ => s <= T
  | FNot c => started val T c s
  | FAnd l r | FOr l r | FImp l r => started val T l s /\ started val T r s
  | FEv i c | FAlw i c => started val T c (s + val (ibegin i))
  | FUntil l i r => started val T l s /\ started val T r (s + val (ibegin i))
  | _ => True
  end.

(** Every atom of [f] stays within [M]. *)
Fixpoint within cst (data : list (list Qc)) (M : Qc) (f : fml Qc) : Prop :=
  match f with
  | FAtom _ _ _ => forall t v, rob cst (fun b => bnum b) data f t v -> - M <= v /\ v <= M
  | FNot c => within cst data M c
  | FAnd l r | FOr l r | FImp l r => within cst data M l /\ within cst data M r
  | FEv _ c | FAlw _ c => within cst data M c
  | FUntil l _ r => within cst data M l /\ within cst data M r
  | _ => True
  end.

(** [f] does not follow one straight line with a slope over [[lo,hi]]. *)
Definition no_ramp cst val (data : list (list Qc)) (f : fml Qc) (lo hi : Qc) : Prop :=
  forall c, (forall u v w, lo <= u -> u <= hi -> rob cst val data f lo v -> rob cst val data f u w ->
               w = v + c * (u - lo)) -> c = 0.

(** The signal of [f] over [[.., hi]] can be restarted at [lo]: the data has a sample in
    [[lo,hi]], [f] is a conjunction, disjunction or implication, a delay of such, or it is
    not one straight slope there. *)
Fixpoint settled cst val (data : list (list Qc)) (f : fml Qc) (lo hi : Qc) : Prop :=
  match f with
  | FAtom _ _ _ => (exists t, In t (map row_time data) /\ lo <= t /\ t <= hi) \/ no_ramp cst val data f lo hi
  | FNot c => settled cst val data c lo hi
  | FAnd _ _ | FOr _ _ | FImp _ _ => True
  | FEv i c | FAlw i c =>
      (val (ibegin i) = val (iend i) /\ settled cst val data c (lo + val (ibegin i)) (hi + val (iend i))) \/
      (covers val (last_time data) f hi /\ no_ramp cst val data f lo hi)
  | _ => False
  end.

(** A signal or a constant. *)
Definition is_leaf (f : fml Qc) : Prop :=
  match f with
  | FSig _ _ | FConst _ _ => True
  | _ => False
  end.

(** Every timed operator that is evaluated over a proper interval [[s,e]] has an operand
    that can be restarted where the first window ends; and the evaluation interval of a
    comparison with arithmetic ends at a sample of the data, or after the data. *)
Fixpoint regular cst val (data : list (list Qc)) (f : fml Qc) (s e : Qc) : Prop :=
  match f with
  | FAtom l _ r => (is_leaf l /\ is_leaf r) \/ In e (map row_time data) \/ last_time data <= e
  | FNot c => regular cst val data c s e
  | FAnd l r | FOr l r | FImp l r => regular cst val data l s e /\ regular cst val data r s e
  | FEv i c | FAlw i c =>
      (val (ibegin i) < val (iend i) -> s < e -> settled cst val data c (s + val (iend i)) (e + val (iend i))) /\
      regular cst val data c (s + val (ibegin i)) (e + val (iend i))
  | FUntil l i r => regular cst val data l s (e + val (iend i)) /\
      regular cst val data r (s + val (ibegin i)) (e + val (iend i))
  | _ => True
  end.

(** For eventually directly over an atom: the evaluation interval is at most [a + b] long,
    as far as there is data. *)
Fixpoint uncut val (T : Qc) (f : fml Qc) (s e : Qc) : Prop :=
  match f with
  | FNot c => uncut val T c s e
  | FAnd l r | FOr l r | FImp l r => uncut val T l s e /\ uncut val T r s e
  | FEv i c =>
      match c with
      | FAtom _ _ _ => qmin (T - val (ibegin i)) e - val (iend i) <= s + val (ibegin i)
      | _ => uncut val T c (s + val (ibegin i)) (e + val (iend i))
      end
  | FAlw i c => uncut val T c (s + val (ibegin i)) (e + val (iend i))
  | FUntil l i r => uncut val T l s (e + val (iend i)) /\ uncut val T r (s + val (ibegin i)) (e + val (iend i))
  | _ => True
  end.

(** Multiples of [d]. *)
Definition on_grid (d x : Qc) : Prop := exists k : Z, x = Q2Qc (inject_Z k) * d.
Fixpoint gridded val (d : Qc) (f : fml Qc) : Prop :=
  match f with
  | FNot c => gridded val d c
  | FAnd l r | FOr l r | FImp l r => gridded val d l /\ gridded val d r
  | FEv i c | FAlw i c => on_grid d (val (ibegin i)) /\ on_grid d (val (iend i)) /\ gridded val d c
  | FUntil l i r => on_grid d (val (ibegin i)) /\ on_grid d (val (iend i)) /\ gridded val d l /\ gridded val d r
  | _ => True
  end.

(** The time up to which data that ends at [T] gives an upper ([up]) or lower bound of [f]
    in an evaluation over [[s,e]]: for comparisons the end of the data.  An upper bound of
    eventually and a lower bound of always need the whole window, the other bounds of
    timed operators the beginning of the window. *)
Definition kwin (strict : bool) (a b s e k : Qc) : Qc :=
  if strict then (if Qclt_le_dec (k - b) s then s else qmin (k - b) e) else qmin (k - a) e.

Fixpoint kend (val : bound Qc -> Qc) (T : Qc) (up : bool) (f : fml Qc) (s e : Qc) : Qc :=
  match f with
  | FNot c => kend val T (negb up) c s e
  | FAnd l r | FOr l r => qmin (kend val T up l s e) (kend val T up r s e)
  | FImp l r => qmin (kend val T (negb up) l s e) (kend val T up r s e)
  | FEv i c => kwin up (val (ibegin i)) (val (iend i)) s e
                 (kend val T up c (s + val (ibegin i)) (e + val (iend i)))
  | FAlw i c => kwin (negb up) (val (ibegin i)) (val (iend i)) s e
                 (kend val T up c (s + val (ibegin i)) (e + val (iend i)))
  | _ => qmin e T
  end.

(** Until with a proper window as in [ufrag], at places where the upper ([up]) or lower bound
    of the formula needs a lower bound of the until. *)
Fixpoint sided (val : bound Qc -> Qc) (w : nat) (up : bool) (f : fml Qc) : Prop :=
  match f with
  | FNot c => sided val w (negb up) c
  | FAnd l r | FOr l r => sided val w up l /\ sided val w up r
  | FImp l r => sided val w (negb up) l /\ sided val w up r
  | FUntil l i r => up = false /\ 0 <= val (ibegin i) /\ val (ibegin i) < val (iend i) /\ afrag val w l /\ afrag val w r
  | _ => afrag val w f
  end.

(** The operands of every until are known beyond the beginning of its first window; and
    they are known to the end of this window, or not up to the time [b]. *)
Fixpoint begun (val : bound Qc -> Qc) (T : Qc) (up : bool) (f : fml Qc) (s e : Qc) : Prop :=
  match f with
  | FNot c => begun val T (negb up) c s e
  | FAnd l r | FOr l r => begun val T up l s e /\ begun val T up r s e
  | FImp l r => begun val T (negb up) l s e /\ begun val T up r s e
  | FUntil l i r =>
      let a := val (ibegin i) in let b := val (iend i) in
      let k := qmin (kend val T up l s (e + b)) (kend val T up r (s + a) (e + b)) in
      s + a < k /\ (s + b <= k \/ k < b)
  | _ => True
  end.

End Sem.
