(** Model of src/robustness.cpp.

    A [const_reverse_iterator] is the list of samples still to be visited, in
    descending order of time ([rbegin] is [rev (samples x)], [rend] is [nil]).
    Dereferencing [rend] is [UB].  The signal being built ([push_front]) is the
    ascending list [z]. *)
From Coq Require Import List Bool.
From Verif Require Import Num Base Signal.
Import ListNotations.

Section Robust.
Context {T : Type} {N : Num T}.
Local Notation smp := (sample T).
Local Notation sig := (signal T).

(** Signal::BigM, signal.cpp:11; TOP and BOTTOM, signal.h:12-13. *)
Variable M : T.
Definition TOP : T := M.
Definition BOTTOM : T := nopp M.

(** robustness.cpp:22-49, loop of compute_boolean. *)
Fixpoint boolean_loop (e : T) (l : list smp) : res (list smp) :=
  match l with
  | nil => Ok nil
  | i :: l' =>
      let next_time := match l' with nil => e | n :: _ => time n end in
      out <- (if nltb n0 (value i) then
                if nltb (deriv i) n0 then
                  q <- of_div (ndiv (value i) (deriv i)) ;;
                  let tz := nsub (time i) q in
                  Ok (mkS (time i) n1 n0 :: (if nltb tz next_time then [mkS tz n0 n0] else []))
                else Ok [mkS (time i) n1 n0]
              else
                if nltb (value i) n0 && nltb n0 (deriv i) then
                  q <- of_div (ndiv (value i) (deriv i)) ;;
                  let tz := nsub (time i) q in
                  Ok (mkS (time i) n0 n0 :: (if nltb tz next_time then [mkS tz n1 n0] else []))
                else Ok [mkS (time i) n0 n0]) ;;
      rest <- boolean_loop e l' ;;
      Ok (out ++ rest)
  end.

(** robustness.cpp:18-54, compute_boolean. *)
Definition compute_boolean (y : sig) : res sig :=
  l <- boolean_loop (endTime y) (samples y) ;;
  z <- simplify (mkSig l (beginTime y) (endTime y)) ;;
  match rev (samples z) with
  | nil => Ok z
  | b :: r => if neqb (time b) (endTime z)
              then Ok (mkSig (rev r) (beginTime z) (endTime z)) else Ok z
  end.

(** robustness.cpp:60-77, compute_left_time_rob. *)
Definition compute_left_time_rob (y : sig) : res sig :=
  b <- compute_boolean y ;;
  Ok (mkSig (map (fun i => if nltb n0 (value i)
                           then mkS (time i) neps n1
                           else mkS (time i) (nopp neps) (nopp n1)) (samples b))
            (beginTime y) (endTime y)).

(** robustness.cpp:87-104, loop of compute_right_time_rob.  Line 93 compares an
    iterator of y_bool with y.end(), which is never reached: at the last element
    the code dereferences y_bool.end(). *)
Fixpoint right_loop (l : list smp) : res (list smp) :=
  match l with
  | nil => Ok nil
  | i :: l' =>
      n <- deref l' ;;
      rest <- right_loop l' ;;
      Ok ((if nltb n0 (value i)
           then mkS (time i) (nsub (time n) (time i)) (nopp n1)
           else mkS (time i) (nsub (time i) (time n)) n1) :: rest)
  end.

(** robustness.cpp:79-106, compute_right_time_rob. *)
Definition compute_right_time_rob (y : sig) : res sig :=
  b <- compute_boolean y ;;
  l <- right_loop (samples b) ;;
  Ok (mkSig l (beginTime y) (endTime y)).

(** robustness.cpp:108-115, compute_not (and 659-670, computeNot). *)
Definition neg_sample (p : smp) : smp := mkS (time p) (nopp (value p)) (nopp (deriv p)).
Definition compute_not (y : sig) : sig :=
  mkSig (map neg_sample (samples y)) (beginTime y) (endTime y).

(** robustness.cpp:940-979, loop of computeSegmentAnd: one iteration of its body
    for the sample [j], giving the new [z] and [continued]. *)
Definition seg_and_body (i : smp) (z : list smp) (t : T) (continued : bool) (j : smp)
  : res (list smp * bool) :=
  let s := time j in
  let it := valueAt i t in
  let jt := valueAt j t in
  if nltb it jt then
    if nltb (value j) (valueAt i s) then
      t' <- timeIntersect i j ;;
      Ok (mkS s (value j) (deriv j) :: mkS t' (valueAt i t') (deriv i) :: z, false)
    else Ok (z, true)
  else if neqb it jt then
    if nltb (value j) (valueAt i s) then
      Ok (mkS s (value j) (deriv j) :: (if continued then mkS t it (deriv i) :: z else z), false)
    else Ok (z, true)
  else
    if nltb (valueAt i s) (value j) then
      let z' := if continued then mkS t it (deriv i) :: z else z in
      t' <- timeIntersect i j ;;
      Ok (mkS t' (valueAt j t') (deriv j) :: z', true)
    else
      Ok (mkS s (value j) (deriv j) :: (if continued then mkS t it (deriv i) :: z else z), false).

Fixpoint seg_and_loop (i : smp) (z : list smp) (t : T) (continued : bool) (j : list smp)
  : res (list smp * T * bool * list smp) :=
  match j with
  | nil => UB
  | sj :: j' =>
      if nltb (time i) (time sj) then
        '(z', c') <- seg_and_body i z t continued sj ;;
        seg_and_loop i z' (time sj) c' j'
      else Ok (z, t, continued, j)
  end.

(** robustness.cpp:981-1015, the end of computeSegmentAnd. *)
Definition seg_and_last (i : smp) (z : list smp) (t : T) (continued : bool) (j : smp)
  : res (list smp) :=
  let s := time i in
  let it := valueAt i t in
  let jt := valueAt j t in
  let js := valueAt j s in
  if nltb it jt then
    if nltb js (value i) then
      t' <- timeIntersect i j ;;
      Ok (mkS s js (deriv j) :: mkS t' (valueAt i t') (deriv i) :: z)
    else Ok (i :: z)
  else if neqb it jt then
    if nltb js (value i) then
      Ok (mkS s js (deriv j) :: (if continued then mkS t it (deriv i) :: z else z))
    else Ok (i :: z)
  else
    if nltb (value i) js then
      let z' := if continued then mkS t it (deriv i) :: z else z in
      t' <- timeIntersect i j ;;
      Ok (i :: mkS t' (valueAt j t') (deriv j) :: z')
    else
      Ok (mkS s js (deriv j) :: (if continued then mkS t it (deriv i) :: z else z)).

(** robustness.cpp:934-1017, computeSegmentAnd: returns z and the iterator j. *)
Definition computeSegmentAnd (z : list smp) (i : smp) (t : T) (j : list smp)
  : res (list smp * list smp) :=
  '(z', t', c', j') <- seg_and_loop i z t false j ;;
  sj <- deref j' ;;
  z'' <- seg_and_last i z' t' c' sj ;;
  Ok (z'', j').

(** robustness.cpp:1021-1037, computePartialAnd. *)
Fixpoint computePartialAnd (z : list smp) (i j : list smp) (s t : T) : res (list smp) :=
  match i with
  | nil => UB
  | p :: i' =>
      if nltb s (time p) then
        '(z', j') <- computeSegmentAnd z p t j ;;
        sj <- deref j' ;;
        computePartialAnd z' i' (if neqb (time sj) (time p) then tl j' else j') s (time p)
      else if neqb (time p) s then
        '(z', _) <- computeSegmentAnd z p t j ;; Ok z'
      else
        '(z', _) <- computeSegmentAnd z (mkS s (valueAt p s) (deriv p)) t j ;; Ok z'
  end.

(** robustness.cpp:1051-1090, loop body of computeSegmentOr. *)
Definition seg_or_body (i : smp) (z : list smp) (t : T) (continued : bool) (j : smp)
  : res (list smp * bool) :=
  let s := time j in
  let it := valueAt i t in
  let jt := valueAt j t in
  if nltb jt it then
    if nltb (valueAt i s) (value j) then
      t' <- timeIntersect i j ;;
      Ok (mkS s (value j) (deriv j) :: mkS t' (valueAt i t') (deriv i) :: z, false)
    else Ok (z, true)
  else if neqb it jt then
    if nltb (valueAt i s) (value j) then
      Ok (mkS s (value j) (deriv j) :: (if continued then mkS t it (deriv i) :: z else z), false)
    else Ok (z, true)
  else
    if nltb (value j) (valueAt i s) then
      let z' := if continued then mkS t it (deriv i) :: z else z in
      t' <- timeIntersect i j ;;
      Ok (mkS t' (valueAt j t') (deriv j) :: z', true)
    else
      Ok (mkS s (value j) (deriv j) :: (if continued then mkS t it (deriv i) :: z else z), false).

Fixpoint seg_or_loop (i : smp) (z : list smp) (t : T) (continued : bool) (j : list smp)
  : res (list smp * T * bool * list smp) :=
  match j with
  | nil => UB
  | sj :: j' =>
      if nltb (time i) (time sj) then
        '(z', c') <- seg_or_body i z t continued sj ;;
        seg_or_loop i z' (time sj) c' j'
      else Ok (z, t, continued, j)
  end.

(** robustness.cpp:1092-1126, the end of computeSegmentOr. *)
Definition seg_or_last (i : smp) (z : list smp) (t : T) (continued : bool) (j : smp)
  : res (list smp) :=
  let s := time i in
  let it := valueAt i t in
  let jt := valueAt j t in
  let js := valueAt j s in
  if nltb jt it then
    if nltb (value i) js then
      t' <- timeIntersect i j ;;
      Ok (mkS s js (deriv j) :: mkS t' (valueAt i t') (deriv i) :: z)
    else Ok (i :: z)
  else if neqb it jt then
    if nltb (value i) js then
      Ok (mkS s js (deriv j) :: (if continued then mkS t it (deriv i) :: z else z))
    else Ok (i :: z)
  else
    if nltb js (value i) then
      let z' := if continued then mkS t it (deriv i) :: z else z in
      t' <- timeIntersect i j ;;
      Ok (i :: mkS t' (valueAt j t') (deriv j) :: z')
    else
      Ok (mkS s js (deriv j) :: (if continued then mkS t it (deriv i) :: z else z)).

(** robustness.cpp:1045-1128, computeSegmentOr. *)
Definition computeSegmentOr (z : list smp) (i : smp) (t : T) (j : list smp)
  : res (list smp * list smp) :=
  '(z', t', c', j') <- seg_or_loop i z t false j ;;
  sj <- deref j' ;;
  z'' <- seg_or_last i z' t' c' sj ;;
  Ok (z'', j').

(** robustness.cpp:1131-1158, computePartialOr. *)
Fixpoint computePartialOr (z : list smp) (i j : list smp) (s t : T) : res (list smp) :=
  match i with
  | nil => UB
  | p :: i' =>
      if nltb s (time p) then
        '(z', j') <- computeSegmentOr z p t j ;;
        sj <- deref j' ;;
        computePartialOr z' i' (if neqb (time sj) (time p) then tl j' else j') s (time p)
      else if neqb (time p) s then
        '(z', _) <- computeSegmentOr z p t j ;; Ok z'
      else
        '(z', _) <- computeSegmentOr z (mkS s (valueAt p s) (deriv p)) t j ;; Ok z'
  end.

(** robustness.cpp:126-129 and 145-148: while ((i->time >= endTime) && i != rend()-1) i++. *)
Fixpoint skip_guarded (e : T) (l : list smp) : res (list smp) :=
  match l with
  | nil => UB
  | p :: l' =>
      if nleb e (time p)
      then match l' with nil => Ok l | _ => skip_guarded e l' end
      else Ok l
  end.

(** robustness.cpp:207-210, 682-685, 717-720, 809-812: while (i->time >= endTime) i++. *)
Fixpoint skip_unguarded (e : T) (l : list smp) : res (list smp) :=
  match l with
  | nil => UB
  | p :: l' => if nleb e (time p) then skip_unguarded e l' else Ok l
  end.

(** robustness.cpp:117-134, compute_and. *)
Definition compute_and (x y : sig) : res sig :=
  let b := fmax (beginTime x) (beginTime y) in
  let e := fmin (endTime x) (endTime y) in
  i <- skip_guarded e (rev (samples x)) ;;
  j <- skip_guarded e (rev (samples y)) ;;
  z <- computePartialAnd [] i j b e ;;
  simplify (mkSig z b e).

(** robustness.cpp:136-153, compute_or. *)
Definition compute_or (x y : sig) : res sig :=
  let b := fmax (beginTime x) (beginTime y) in
  let e := fmin (endTime x) (endTime y) in
  i <- skip_guarded e (rev (samples x)) ;;
  j <- skip_guarded e (rev (samples y)) ;;
  z <- computePartialOr [] i j b e ;;
  simplify (mkSig z b e).

(** robustness.cpp:155-162, compute_implies. *)
Definition compute_implies (x y : sig) : res sig := compute_or (compute_not x) y.

(** robustness.cpp:672-691, computeAnd. *)
Definition computeAnd (x y : sig) : res sig :=
  let b := fmax (beginTime x) (beginTime y) in
  let e := fmin (endTime x) (endTime y) in
  i <- skip_unguarded e (rev (samples x)) ;;
  j <- skip_unguarded e (rev (samples y)) ;;
  z <- computePartialAnd [] i j b e ;;
  simplify (mkSig z b e).

(** robustness.cpp:693-736, computeOr. *)
Definition computeOr (x y : sig) : res sig :=
  let b := fmax (beginTime x) (beginTime y) in
  let e := fmin (endTime x) (endTime y) in
  i <- skip_unguarded e (rev (samples x)) ;;
  j <- skip_unguarded e (rev (samples y)) ;;
  z <- computePartialOr [] i j b e ;;
  simplify (mkSig z b e).

(** robustness.cpp:1168-1199, loop of computePartialEventually.  Returns z, t,
    continued, z_max and the iterator. *)
Fixpoint partial_ev_loop (z : list smp) (i : list smp) (s t : T) (continued : bool) (zmax : T)
  : res (list smp * T * bool * T * list smp) :=
  match i with
  | nil => UB
  | p :: i' =>
      if nltb s (time p) then
        let pt := valueAt p t in
        '(z', c', m') <-
          (if nleb n0 (deriv p) then
             if nltb zmax pt
             then Ok ((if continued then mkS t zmax n0 :: z else z), true, pt)
             else Ok (z, true, zmax)
           else if nleb zmax pt then
             Ok (p :: (if continued then mkS t zmax n0 :: z else z), false, value p)
           else if nleb (value p) zmax then Ok (z, true, zmax)
           else
             q <- of_div (ndiv (nsub zmax (value p)) (deriv p)) ;;
             Ok (p :: mkS (nadd (time p) q) zmax n0 :: z, false, value p)) ;;
        partial_ev_loop z' i' s (time p) c' m'
      else Ok (z, t, continued, zmax, i)
  end.

(** robustness.cpp:1201-1221, the end of computePartialEventually.  Line 1219
    adds to [s], not to the time of the sample. *)
Definition partial_ev_last (z : list smp) (p : smp) (s t : T) (continued : bool) (zmax : T)
  : res (list smp) :=
  let pt := valueAt p t in
  if nleb n0 (deriv p) then
    if nltb zmax pt
    then Ok (mkS s pt n0 :: (if continued then mkS t zmax n0 :: z else z))
    else Ok (mkS s zmax n0 :: z)
  else if nleb zmax pt then
    Ok (mkS s (valueAt p s) (deriv p) :: (if continued then mkS t zmax n0 :: z else z))
  else if nleb (valueAt p s) zmax then Ok (mkS s zmax n0 :: z)
  else
    q <- of_div (ndiv (nsub zmax (value p)) (deriv p)) ;;
    Ok (mkS s (valueAt p s) (deriv p) :: mkS (nadd s q) zmax n0 :: z).

(** robustness.cpp:1165-1223, computePartialEventually: z and the iterator. *)
Definition computePartialEventually (z : list smp) (i : list smp) (s t : T)
  : res (list smp * list smp) :=
  '(z', t', c', m', i') <- partial_ev_loop z i s t false BOTTOM ;;
  p <- deref i' ;;
  z'' <- partial_ev_last z' p s t' c' m' ;;
  Ok (z'', i').

(** robustness.cpp:164-171, compute_eventually: the receiver [self] is not cleared. *)
Definition compute_eventually (self x : sig) : res sig :=
  '(z, _) <- computePartialEventually (samples self) (rev (samples x)) (beginTime x) (endTime x) ;;
  Ok (mkSig z (beginTime x) (endTime x)).

(** robustness.cpp:752-772, computeEventually. *)
Definition computeEventually (x : sig) : res sig := compute_eventually empty_signal x.

(** robustness.cpp:173-186 compute_globally and 775-791 computeGlobally. *)
Definition computeGlobally (x : sig) : res sig :=
  z <- computeEventually (compute_not x) ;;
  Ok (compute_not z).

(** robustness.cpp:1226-1266, computeSegmentUntil: z and the iterator j. *)
Definition computeSegmentUntil (z : list smp) (i : smp) (t : T) (j : list smp) (zmax : T)
  : res (list smp * list smp) :=
  let s := time i in
  if nleb (deriv i) n0 then
    '(z1, j') <- computeSegmentAnd [] i t j ;;
    '(z2, _) <- computePartialEventually [] (rev z1) s t ;;
    '(z', _) <- computeSegmentOr z (mkS s (fmin zmax (valueAt i t)) n0) t (rev z2) ;;
    Ok (z', j')
  else
    '(z1, j') <- computePartialEventually [] j s t ;;
    '(z2, _) <- computeSegmentAnd [] i t (rev z1) ;;
    '(z3, _) <- computeSegmentAnd [] i t [mkS s zmax n0] ;;
    z' <- computePartialOr z (rev z3) (rev z2) s t ;;
    Ok (z', j').

(** robustness.cpp:215-230 and 817-832, loop of compute_until / computeUntil. *)
Fixpoint until_loop (z : list smp) (i j : list smp) (s t zmax : T) : res (list smp) :=
  match i with
  | nil => UB
  | p :: i' =>
      if nltb s (time p) then
        '(z', j') <- computeSegmentUntil z p t j zmax ;;
        f <- deref z' ;;
        sj <- deref j' ;;
        until_loop z' i' (if neqb (time sj) (time p) then tl j' else j') s (time p) (value f)
      else if neqb (time p) s then
        '(z', _) <- computeSegmentUntil z p t j zmax ;; Ok z'
      else
        '(z', _) <- computeSegmentUntil z (mkS s (valueAt p s) (deriv p)) t j zmax ;; Ok z'
  end.

(** robustness.cpp:794-840, computeUntil. *)
Definition computeUntil (x y : sig) : res sig :=
  let b := fmax (beginTime x) (beginTime y) in
  let e := fmin (endTime x) (endTime y) in
  i <- skip_unguarded e (rev (samples x)) ;;
  j <- skip_unguarded e (rev (samples y)) ;;
  z <- until_loop [] i j b e BOTTOM ;;
  simplify (mkSig z b e).

(** robustness.cpp:188-238, compute_until: the receiver is only cleared when an
    operand is empty. *)
Definition compute_until (self x y : sig) : res sig :=
  match samples x, samples y with
  | nil, _ | _, nil => Ok (mkSig [] (beginTime self) (endTime self))
  | _, _ =>
      let b := fmax (beginTime x) (beginTime y) in
      let e := fmin (endTime x) (endTime y) in
      i <- skip_unguarded e (rev (samples x)) ;;
      j <- skip_unguarded e (rev (samples y)) ;;
      z <- until_loop (samples self) i j b e BOTTOM ;;
      simplify (mkSig z b e)
  end.

(** Point, signal.h:19-29, as a pair (time, value). *)
Local Notation pt := (T * T)%type.

(** robustness.cpp:1291-1299, precomputation of plateauMax: [l] is the reversed
    signal, [t], [v] the C++ variables, [y] the sequence built by push_front. *)
Fixpoint plateau_max_pre (l : list smp) (t v : T) (y : list pt) : list pt :=
  match l with
  | nil => y
  | j :: l' => plateau_max_pre l' (time j) (value j) ((t, fmax v (valueAt j t)) :: y)
  end.

(** robustness.cpp:1308-1316, initial reading of plateauMax. *)
Fixpoint plateau_max_init (lim : T) (Mq : list pt) (i : list pt) : res (list pt * list pt) :=
  match i with
  | nil => UB
  | p :: i' =>
      if nltb (fst p) lim
      then plateau_max_init lim (pop_back_while (fun q => nleb (snd q) (snd p)) Mq ++ [p]) i'
      else Ok (Mq, i)
  end.

(** robustness.cpp:1391-1440 (and 1542-1572), next event: t, new_candidate, end_candidate. *)
Definition plateau_next (a : T) (Mq i : list pt) (t : T) : T * bool * bool :=
  match Mq with
  | m :: _ =>
      match i with
      | p :: _ =>
          if neqb (nsub (fst p) a) (fst m) then (fst m, true, true)
          else if nltb (nsub (fst p) a) (fst m) then (nsub (fst p) a, true, false)
          else (fst m, false, true)
      | nil => (fst m, false, true)
      end
  | nil =>
      match i with
      | p :: _ => (nsub (fst p) a, true, false)
      | nil => (t, false, false)
      end
  end.

(** robustness.cpp:1336-1442, main loop of plateauMax. [z] is in ascending order. *)
Fixpoint plateau_max_loop (fuel : nat) (a : T) (Mq i : list pt) (t : T) (nc ec : bool) (z : list smp)
  : res (list smp) :=
  match fuel with
  | O => OutOfFuel
  | S n =>
      M1 <- (if ec then match Mq with nil => UB | _ :: q => Ok q end else Ok Mq) ;;
      '(M2, i2) <- (if nc then
                      p <- deref i ;;
                      Ok (pop_back_while (fun q => nleb (snd q) (snd p)) M1 ++ [p], tl i)
                    else Ok (M1, i)) ;;
      let z2 := z ++ [mkS t (match M2 with nil => BOTTOM | m :: _ => snd m end) n0] in
      let '(t3, nc3, ec3) := plateau_next a M2 i2 t in
      if nc3 || ec3 then plateau_max_loop n a M2 i2 t3 nc3 ec3 z2 else Ok z2
  end.

(** robustness.cpp:1444 and 1576: if(z->back().time==z->endTime) z->pop_back(). *)
Definition drop_last_at (e : T) (z : list smp) : res (list smp) :=
  match rev z with
  | nil => UB
  | b :: r => if neqb (time b) e then Ok (rev r) else Ok z
  end.

(** robustness.cpp:1275-1452, plateauMax. *)
Definition plateauMax (x : sig) (a : T) : res sig :=
  f <- deref (samples x) ;;
  let y := (time f, value f) :: plateau_max_pre (rev (samples x)) (endTime x) BOTTOM [] in
  '(Mq, i) <- plateau_max_init (nadd (beginTime x) a) [] y ;;
  p <- deref i ;;
  z <- plateau_max_loop (2 * length y + 2) a Mq i (beginTime x)
         (neqb (fst p) (nadd (beginTime x) a)) false [] ;;
  z' <- drop_last_at (endTime x) z ;;
  Ok (mkSig z' (beginTime x) (endTime x)).

(** robustness.cpp:1468-1476, precomputation of plateauMin. *)
Fixpoint plateau_min_pre (l : list smp) (t v : T) (y : list pt) : list pt :=
  match l with
  | nil => y
  | j :: l' => plateau_min_pre l' (time j) (value j) ((t, fmin v (valueAt j t)) :: y)
  end.

(** robustness.cpp:1480-1486. *)
Fixpoint plateau_min_init (lim : T) (Mq : list pt) (i : list pt) : res (list pt * list pt) :=
  match i with
  | nil => UB
  | p :: i' =>
      if nltb (fst p) lim
      then plateau_min_init lim (pop_back_while (fun q => nleb (snd p) (snd q)) Mq ++ [p]) i'
      else Ok (Mq, i)
  end.

(** robustness.cpp:1500-1574, main loop of plateauMin. *)
Fixpoint plateau_min_loop (fuel : nat) (a : T) (Mq i : list pt) (t : T) (nc ec : bool) (z : list smp)
  : res (list smp) :=
  match fuel with
  | O => OutOfFuel
  | S n =>
      M1 <- (if ec then match Mq with nil => UB | _ :: q => Ok q end else Ok Mq) ;;
      '(M2, i2) <- (if nc then
                      p <- deref i ;;
                      Ok (pop_back_while (fun q => nleb (snd p) (snd q)) M1 ++ [p], tl i)
                    else Ok (M1, i)) ;;
      let z2 := z ++ [mkS t (match M2 with nil => TOP | m :: _ => snd m end) n0] in
      let '(t3, nc3, ec3) := plateau_next a M2 i2 t in
      if nc3 || ec3 then plateau_min_loop n a M2 i2 t3 nc3 ec3 z2 else Ok z2
  end.

(** robustness.cpp:1456-1579, plateauMin. *)
Definition plateauMin (x : sig) (a : T) : res sig :=
  f <- deref (samples x) ;;
  let y := (time f, value f) :: plateau_min_pre (rev (samples x)) (endTime x) TOP [] in
  '(Mq, i) <- plateau_min_init (nadd (beginTime x) a) [] y ;;
  p <- deref i ;;
  z <- plateau_min_loop (2 * length y + 2) a Mq i (beginTime x)
         (neqb (fst p) (nadd (beginTime x) a)) false [] ;;
  z' <- drop_last_at (endTime x) z ;;
  Ok (mkSig z' (beginTime x) (endTime x)).

(** robustness.cpp:842-871, computeBoundedEventually. *)
Definition computeBoundedEventually (x : sig) (a : T) : res sig :=
  z1 <- plateauMax x a ;;
  z2 <- resize x (nadd (beginTime x) a) (nadd (endTime x) a) BOTTOM ;;
  let z2 := shift z2 (nopp a) in
  z3 <- computeOr z2 z1 ;;
  z <- computeOr x z3 ;;
  simplify z.

(** robustness.cpp:873-900, computeBoundedGlobally. *)
Definition computeBoundedGlobally (x : sig) (a : T) : res sig :=
  z1 <- plateauMin x a ;;
  z2 <- resize x (nadd (beginTime x) a) (nadd (endTime x) a) TOP ;;
  let z2 := shift z2 (nopp a) in
  z3 <- computeAnd z2 z1 ;;
  z <- computeAnd x z3 ;;
  simplify z.

(** robustness.cpp:268-307, compute_timed_eventually.  When [x] is empty the
    receiver keeps its domain; [self] gives it. *)
Definition compute_timed_eventually (self x : sig) (a b : T) : res sig :=
  match samples x with
  | nil => Ok (mkSig [] (beginTime self) (endTime self))
  | _ =>
      let y := if nltb n0 a then shift x (nopp a) else x in
      if nleb (nsub b a) n0 then Ok y
      else if nleb (nsub (endTime y) (beginTime y)) (nsub b a)
      then computeEventually y
      else computeBoundedEventually y (nsub b a)
  end.

(** robustness.cpp:331-373, compute_timed_globally. *)
Definition compute_timed_globally (self x : sig) (a b : T) : res sig :=
  match samples x with
  | nil => Ok (mkSig [] (beginTime self) (endTime self))
  | _ =>
      let y := if nltb n0 a then shift x (nopp a) else x in
      if nleb (nsub b a) n0 then Ok y
      else if nleb (nsub (endTime y) (beginTime y)) (nsub b a)
      then computeGlobally y
      else computeBoundedGlobally y (nsub b a)
  end.

(** robustness.cpp:903-926, computeTimedUntil. *)
Definition computeTimedUntil (x y : sig) (a b : T) : res sig :=
  z2 <- computeBoundedEventually y (nsub b a) ;;
  z3 <- computeUntil x y ;;
  z4 <- computeAnd z2 z3 ;;
  if nltb n0 a then
    z1 <- computeBoundedGlobally x a ;;
    computeAnd z1 (shift z4 (nopp a))
  else computeAnd x z4.

(** robustness.cpp:375-411, compute_timed_until. *)
Definition compute_timed_until (self x y : sig) (a b : T) : res sig :=
  match samples x, samples y with
  | nil, _ | _, nil => Ok (mkSig [] (beginTime self) (endTime self))
  | _, _ =>
      if nltb (smin (endTime x) (endTime y)) b then
        if neqb a n0 then computeUntil x y
        else if nltb (endTime x) a then computeGlobally x
        else
          yalw1 <- computeBoundedGlobally x a ;;
          yuntmp <- computeUntil x y ;;
          computeAnd yalw1 (shift yuntmp (nopp a))
      else computeTimedUntil x y a b
  end.

End Robust.
