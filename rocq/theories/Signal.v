(** Model of include/signal.h and src/signal.cpp. *)
From Coq Require Import List Bool.
From Verif Require Import Num Base.
Import ListNotations.

(** signal.h:64-74.  BOOLEAN exists in the enumeration but no setter accepts it. *)
Inductive semantics := SPACE | LEFT_TIME | RIGHT_TIME | BOOLEAN.
Inductive interpol := PREVIOUS | LINEAR.

(** signal.h:31-44, class Sample (with the inherited Point, 19-29). *)
Record sample (T : Type) := mkS { time : T; value : T; deriv : T }.
Arguments mkS {T} time value deriv.
Arguments time {T} s.
Arguments value {T} s.
Arguments deriv {T} s.

(** signal.h:77-146, class Signal: a deque of samples with its domain. *)
Record signal (T : Type) := mkSig { samples : list (sample T); beginTime : T; endTime : T }.
Arguments mkSig {T} samples beginTime endTime.
Arguments samples {T} s.
Arguments beginTime {T} s.
Arguments endTime {T} s.

Section Signal.
Context {T : Type} {N : Num T}.

(** robustness.cpp:9-10, the macros fmin and fmax. *)
Definition fmin (a b : T) : T := if nltb a b then a else b.
Definition fmax (a b : T) : T := if nltb b a then a else b.
(** std::min and std::max. *)
Definition smin (a b : T) : T := if nltb b a then b else a.
Definition smax (a b : T) : T := if nltb a b then b else a.

(** signal.h:47-49. *)
Definition valueAt (p : sample T) (t : T) : T :=
  nadd (value p) (nmul (deriv p) (nsub t (time p))).

(** signal.h:52-54. *)
Definition timeIntersect (p q : sample T) : res T :=
  of_div (ndiv (nsub (nadd (nsub (value p) (value q)) (nmul (deriv q) (time q)))
                     (nmul (deriv p) (time p)))
               (nsub (deriv q) (deriv p))).

(** signal.h:146, the default constructor. *)
Definition empty_signal : signal T := mkSig [] n0 n0.

(** signal.h:35, Sample(); Point() sets time and value to 0. *)
Definition default_sample : sample T := mkS n0 n0 n0.

(** back().derivative = d, signal.cpp:100. *)
Fixpoint set_back_deriv (l : list (sample T)) (d : T) : list (sample T) :=
  match l with
  | nil => nil
  | p :: nil => [mkS (time p) (value p) d]
  | p :: l' => p :: set_back_deriv l' d
  end.

(** signal.cpp:71-108, appendSample(t, v, d). *)
Definition appendSample3 (ip : interpol) (x : signal T) (t v d : T) : res (signal T) :=
  if nleb t (endTime x) && negb (match samples x with nil => true | _ => false end)
  then Ok x
  else
    match ip with
    | PREVIOUS =>
        match samples x with
        | nil => Ok (mkSig [mkS t v n0] t t)
        | l => Ok (mkSig (l ++ [mkS t v n0]) (beginTime x) t)
        end
    | LINEAR =>
        match samples x with
        | nil => Ok (mkSig [mkS t v d] t t)
        | l =>
            b <- back l ;;
            d' <- of_div (ndiv (nsub v (value b)) (nsub t (time b))) ;;
            Ok (mkSig (set_back_deriv l d' ++ [mkS t v d]) (beginTime x) t)
        end
    end.

(** signal.cpp:67-69, appendSample(t, v). *)
Definition appendSample (ip : interpol) (x : signal T) (t v : T) : res (signal T) :=
  appendSample3 ip x t v n0.

(** signal.cpp:110-118, appendSignal. *)
Fixpoint appendSamples (ip : interpol) (x : signal T) (l : list (sample T)) : res (signal T) :=
  match l with
  | nil => Ok x
  | p :: l' =>
      x' <- appendSample3 ip x (time p) (value p) (deriv p) ;;
      appendSamples ip x' l'
  end.
Definition appendSignal (ip : interpol) (x s : signal T) : res (signal T) :=
  appendSamples ip x (samples s).

(** A history of calls appendSample(t, v). *)
Fixpoint append_all (ip : interpol) (x : signal T) (l : list (T * T)) : res (signal T) :=
  match l with
  | nil => Ok x
  | (t, v) :: l' => x' <- appendSample ip x t v ;; append_all ip x' l'
  end.

(** signal.cpp:62-65, addLastSample. *)
Definition addLastSample (x : signal T) : res (signal T) :=
  b <- back (samples x) ;;
  if nltb (time b) (endTime x)
  then Ok (mkSig (samples x ++ [mkS (endTime x) (valueAt b (endTime x)) n0]) (beginTime x) (endTime x))
  else Ok x.

(** signal.cpp:129-134, the loop of simplify: the deque is rotated until the
    sample at beginTime is at the front again.  [back q] is never [UB] here
    because [q] is not empty. *)
Fixpoint simplify_loop (fuel : nat) (b : T) (q : list (sample T)) : res (list (sample T)) :=
  match q with
  | nil => UB
  | f :: q' =>
      if neqb (time f) b then Ok q
      else
        match fuel with
        | O => OutOfFuel
        | S n =>
            bk <- back q ;;
            simplify_loop n b
              (if negb (neqb (valueAt bk (time f)) (value f)) || negb (neqb (deriv bk) (deriv f))
               then q' ++ [f] else q')
        end
  end.

(** signal.cpp:121-144, simplify. *)
Definition simplify (x : signal T) : res (signal T) :=
  match samples x with
  | nil => UB
  | f :: l =>
      q <- simplify_loop (2 * length (samples x)) (beginTime x) (l ++ [f]) ;;
      bk <- back q ;;
      Ok (mkSig (if nltb (time bk) (endTime x)
                 then q ++ [mkS (endTime x) (valueAt bk (endTime x)) n0] else q)
                (beginTime x) (endTime x))
  end.

(** signal.cpp:177-180: pop the front while its time is below [s], remembering
    the last popped sample. *)
Fixpoint pop_front_lt (s : T) (first : sample T) (l : list (sample T)) : sample T * list (sample T) :=
  match l with
  | nil => (first, nil)
  | p :: l' => if nltb (time p) s then pop_front_lt s p l' else (first, l)
  end.

(** signal.cpp:171-193, front half of resize; returns the samples and endTime. *)
Definition resize_front (x : signal T) (s : T) : res (list (sample T) * T) :=
  if nltb s (beginTime x) then
    f <- deref (samples x) ;;
    Ok (mkS s (value f) n0 :: samples x, endTime x)
  else
    let '(first, l) := pop_front_lt s default_sample (samples x) in
    match l with
    | nil => Ok ([mkS s (valueAt first s) n0], if nltb (endTime x) s then s else endTime x)
    | f :: _ =>
        if nltb s (time f)
        then Ok (mkS s (valueAt first s) (deriv first) :: l, endTime x)
        else Ok (l, endTime x)
    end.

(** signal.cpp:194-208, back half of resize. *)
Definition resize_back (l : list (sample T)) (e s t v : T) : res (list (sample T)) :=
  l' <- (if nltb e t then
           b <- back l ;;
           Ok (if negb (neqb (value b) v) || negb (neqb (deriv b) n0)
               then l ++ [mkS e v n0] else l)
         else Ok (pop_back_while (fun p => nltb t (time p)) l)) ;;
  Ok (match l' with nil => [mkS s v n0] | _ => l' end).

(** signal.cpp:146-215, resize. *)
Definition resize (x : signal T) (s t v : T) : res (signal T) :=
  if nltb t (nsub s neps) then Ok empty_signal
  else
    let t := if nltb t s then s else t in
    '(l, e) <- resize_front x s ;;
    l' <- resize_back l e s t v ;;
    Ok (mkSig l' s t).

(** signal.cpp:217-226, shift. *)
Definition shift_sample (a : T) (p : sample T) : sample T :=
  mkS (nadd (time p) a) (value p) (deriv p).
Definition shift (x : signal T) (a : T) : signal T :=
  mkSig (map (shift_sample a) (samples x)) (nadd (beginTime x) a) (nadd (endTime x) a).

(** signal.cpp:228-237, removeInf; [M] is BigM. *)
Definition removeInf (M : T) (x : signal T) : signal T :=
  mkSig (pop_back_while (fun p => neqb (value p) M || neqb (deriv p) M
                                  || neqb (value p) (nopp M) || neqb (deriv p) (nopp M))
                        (samples x))
        (beginTime x) (endTime x).

End Signal.
