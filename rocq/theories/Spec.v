(** Specification vocabulary.  Nothing here refers to the modelled routines: only
    to the data types [sample] and [signal]. *)
From Coq Require Import List QArith Qcanon.
From Verif Require Import Num Base Signal.
Import ListNotations.
Local Open Scope Qc_scope.

(** The straight line carried by a sample. *)
Definition line (p : sample Qc) (t : Qc) : Qc := value p + deriv p * (t - time p).

(** The value denoted at time [t]: that of the line of the last sample whose time
    is at most [t]. *)
Definition denotes (l : list (sample Qc)) (t v : Qc) : Prop :=
  exists l1 p l2, l = l1 ++ p :: l2 /\ time p <= t /\ Forall (fun q => t < time q) l2
                  /\ v = line p t.

(** Samples in non-decreasing order of time. *)
Fixpoint ordered (l : list (sample Qc)) : Prop :=
  match l with
  | nil => True
  | p :: l' => Forall (fun q => time p <= time q) l' /\ ordered l'
  end.

(** Samples in strictly increasing order of time. *)
Fixpoint increasing (l : list (sample Qc)) : Prop :=
  match l with
  | nil => True
  | p :: l' => Forall (fun q => time p < time q) l' /\ increasing l'
  end.

(** A usable signal: not empty, ordered, defined from beginTime on. *)
Definition wf (x : signal Qc) : Prop :=
  ordered (samples x) /\ beginTime x <= endTime x /\
  exists p l, samples x = p :: l /\ time p <= beginTime x.

(** The signal has value [v] at time [t] of its domain. *)
Definition at_time (x : signal Qc) (t v : Qc) : Prop :=
  beginTime x <= t /\ t <= endTime x /\ denotes (samples x) t v.

(** Each sample's line meets the next sample: no jump. *)
Fixpoint continuous (l : list (sample Qc)) : Prop :=
  match l with
  | p :: ((q :: _) as l') => line p (time q) = value q /\ continuous l'
  | _ => True
  end.

(** A continuous signal whose samples start at its beginning and stay in its domain. *)
Definition simple (x : signal Qc) : Prop :=
  (exists p l, samples x = p :: l /\ time p = beginTime x) /\
  ordered (samples x) /\ continuous (samples x) /\ Forall (fun q => time q <= endTime x) (samples x).

Definition qmin (a b : Qc) : Qc := if Qclt_le_dec b a then b else a.
Definition qmax (a b : Qc) : Qc := if Qclt_le_dec a b then b else a.

(** [v] is the least upper bound of [f] over the closed interval [[lo,hi]]. *)
Definition is_sup (f : Qc -> Qc) (lo hi v : Qc) : Prop :=
  (forall u, lo <= u -> u <= hi -> f u <= v) /\
  (forall w, (forall u, lo <= u -> u <= hi -> f u <= w) -> v <= w).

Definition is_inf (f : Qc -> Qc) (lo hi v : Qc) : Prop :=
  (forall u, lo <= u -> u <= hi -> v <= f u) /\
  (forall w, (forall u, lo <= u -> u <= hi -> w <= f u) -> w <= v).

(** [v] is the value at [t] of [x] until [y] with the right operand in [[lo,hi]]. *)
Definition is_until (x y : Qc -> Qc) (t lo hi v : Qc) : Prop :=
  exists h, (forall u, t <= u -> u <= hi -> is_inf x t u (h u)) /\
            is_sup (fun u => qmin (y u) (h u)) lo hi v.

(** Wherever [x] starts to rise, the piece of [y] in force starts at the same time or
    does not fall. *)
Definition in_step (x y : signal Qc) : Prop :=
  let b := qmax (beginTime x) (beginTime y) in
  let e := qmin (endTime x) (endTime y) in
  forall p l1 q l2, In p (samples x) -> 0 < deriv p -> time p < e ->
    samples y = l1 ++ q :: l2 -> time q <= qmax (time p) b -> Forall (fun r => qmax (time p) b < time r) l2 ->
    time q = qmax (time p) b \/ 0 <= deriv q.

(** ** Sampled data *)

(** The points kept by a recorder that accepts the first point and then every
    point that is later than the last one kept ([last]). *)
Fixpoint accepted (last : option Qc) (l : list (Qc * Qc)) : list (Qc * Qc) :=
  match l with
  | nil => nil
  | (t, v) :: l' =>
      match last with
      | None => (t, v) :: accepted (Some t) l'
      | Some s => if Qclt_le_dec s t then (t, v) :: accepted (Some t) l' else accepted last l'
      end
  end.

(** Piecewise linear interpolation of points, constant before and after. *)
Inductive linear (l : list (Qc * Qc)) (t : Qc) : Qc -> Prop :=
| lin_first : forall t1 v1 l2, l = (t1, v1) :: l2 -> t <= t1 -> linear l t v1
| lin_seg : forall l1 t1 v1 t2 v2 l2, l = l1 ++ (t1, v1) :: (t2, v2) :: l2 -> t1 <= t -> t <= t2 ->
    linear l t (v1 + (v2 - v1) / (t2 - t1) * (t - t1))
| lin_last : forall l1 t1 v1, l = l1 ++ [(t1, v1)] -> t1 <= t -> linear l t v1.

(** The latest value at or before [t]. *)
Inductive previous (l : list (Qc * Qc)) (t : Qc) : Qc -> Prop :=
| prev_at : forall l1 t1 v1 l2, l = l1 ++ (t1, v1) :: l2 -> t1 <= t ->
    Forall (fun q => t < fst q) l2 -> previous l t v1.

(** Points with strictly increasing times. *)
Fixpoint rising (l : list (Qc * Qc)) : Prop :=
  match l with
  | nil => True
  | p :: l' => Forall (fun q => fst p < fst q) l' /\ rising l'
  end.

(** ** Pointwise combination

    [z] combines [x] and [y] with [op] on the common domain [[b,e]]: at every time of
    [[b,e)], and at [e] too if both signals have no jump. *)
Definition pointwise (x y : signal Qc) (op : Qc -> Qc -> Qc) (z : signal Qc) : Prop :=
  let b := qmax (beginTime x) (beginTime y) in
  let e := qmin (endTime x) (endTime y) in
  beginTime z = b /\ endTime z = e /\ wf z /\
  (forall t, b <= t -> t < e ->
     exists v w, denotes (samples x) t v /\ denotes (samples y) t w /\ denotes (samples z) t (op v w)) /\
  (continuous (samples x) -> continuous (samples y) ->
     exists v w, denotes (samples x) e v /\ denotes (samples y) e w /\ denotes (samples z) e (op v w)).
