(** Model of the transducer classes: include/transducer.h, include/signal_expr.h,
    src/transducer.cpp, src/interval_transducer.cpp, src/stl_atom.cpp,
    src/signal_expr.cpp, src/interval.cpp. *)
From Coq Require Import List Bool String.
From Verif Require Import Num Base Signal Robust.
Import ListNotations.

(** transducer.h:500-502. *)
Inductive comparator := LESSTHAN | GREATERTHAN.

(** interval.h:12-17, one side of an interval: the number, and the string kept
    when the text was not a number (interval.cpp:16-21). *)
Record bound (T : Type) := mkB { bnum : T; bstr : option string }.
Arguments mkB {T} bnum bstr.
Arguments bnum {T} b.
Arguments bstr {T} b.
Record interval (T : Type) := mkI { ibegin : bound T; iend : bound T }.
Arguments mkI {T} ibegin iend.
Arguments ibegin {T} i.
Arguments iend {T} i.

(** Formulas and signal expressions as built by the parser (no state).
    [FSig var col]: a signal_transducer; [col] is signal_map[var] (0 if absent).
    [FConst p v]: a constant_transducer with its parameter name, if any. *)
Inductive fml (T : Type) : Type :=
| FSig (var : string) (col : nat)
| FConst (p : option string) (v : T)
| FAbs (c : fml T)
| FPlus (l r : fml T)
| FMinus (l r : fml T)
| FMult (l r : fml T)
| FAtom (l : fml T) (op : comparator) (r : fml T)
| FNot (c : fml T)
| FAnd (l r : fml T)
| FOr (l r : fml T)
| FImp (l r : fml T)
| FEv (i : interval T) (c : fml T)
| FAlw (i : interval T) (c : fml T)
| FUntil (l : fml T) (i : interval T) (r : fml T).
Arguments FSig {T} var col.
Arguments FConst {T} p v.
Arguments FAbs {T} c.
Arguments FPlus {T} l r.
Arguments FMinus {T} l r.
Arguments FMult {T} l r.
Arguments FAtom {T} l op r.
Arguments FNot {T} c.
Arguments FAnd {T} l r.
Arguments FOr {T} l r.
Arguments FImp {T} l r.
Arguments FEv {T} i c.
Arguments FAlw {T} i c.
Arguments FUntil {T} l i r.

(** transducer.h:33-39, the mutable members of a transducer. *)
Record nst (T : Type) := mkN {
  nz : signal T; nup : signal T; nlow : signal T; start_time : T; end_time : T }.
Arguments mkN {T} nz nup nlow start_time end_time.
Arguments nz {T} n.
Arguments nup {T} n.
Arguments nlow {T} n.
Arguments start_time {T} n.
Arguments end_time {T} n.

(** A transducer object.  The read cursor td_idx (signal_expr.h:25, 81) has no
    initialiser: [None] until set_trace_data_ptr is called. *)
Inductive tree (T : Type) : Type :=
| TSig (n : nst T) (td_idx : option nat) (var : string) (col : nat)
| TConst (n : nst T) (td_idx : option nat) (p : option string) (v : T)
| TAbs (n : nst T) (c : tree T)
| TPlus (n : nst T) (l r : tree T)
| TMinus (n : nst T) (l r : tree T)
| TMult (n : nst T) (l r : tree T)
| TAtom (n : nst T) (l : tree T) (op : comparator) (r : tree T)
| TNot (n : nst T) (c : tree T)
| TAnd (n : nst T) (l r : tree T)
| TOr (n : nst T) (l r : tree T)
| TImp (n : nst T) (l r : tree T)
| TEv (n : nst T) (i : interval T) (c : tree T)
| TAlw (n : nst T) (i : interval T) (c : tree T)
| TUntil (n : nst T) (l : tree T) (i : interval T) (r : tree T).
Arguments TSig {T} n td_idx var col.
Arguments TConst {T} n td_idx p v.
Arguments TAbs {T} n c.
Arguments TPlus {T} n l r.
Arguments TMinus {T} n l r.
Arguments TMult {T} n l r.
Arguments TAtom {T} n l op r.
Arguments TNot {T} n c.
Arguments TAnd {T} n l r.
Arguments TOr {T} n l r.
Arguments TImp {T} n l r.
Arguments TEv {T} n i c.
Arguments TAlw {T} n i c.
Arguments TUntil {T} n l i r.

(** What an evaluation reads besides the tree: the statics of class Signal
    (signal.cpp:8-11) and the objects behind trace_data_ptr and param_map_ptr. *)
Record env (T : Type) := mkEnv {
  e_sem : semantics; e_ip : interpol; e_M : T;
  e_data : list (list T); e_params : list (string * T) }.
Arguments mkEnv {T} e_sem e_ip e_M e_data e_params.
Arguments e_sem {T} e.
Arguments e_ip {T} e.
Arguments e_M {T} e.
Arguments e_data {T} e.
Arguments e_params {T} e.

Section Transducer.
Context {T : Type} {N : Num T}.

Definition node (t : tree T) : nst T :=
  match t with
  | TSig n _ _ _ | TConst n _ _ _ | TAbs n _ | TPlus n _ _ | TMinus n _ _ | TMult n _ _
  | TAtom n _ _ _ | TNot n _ | TAnd n _ _ | TOr n _ _ | TImp n _ _
  | TEv n _ _ | TAlw n _ _ | TUntil n _ _ _ => n
  end.

Definition set_node (t : tree T) (n : nst T) : tree T :=
  match t with
  | TSig _ k v c => TSig n k v c
  | TConst _ k p v => TConst n k p v
  | TAbs _ c => TAbs n c
  | TPlus _ l r => TPlus n l r
  | TMinus _ l r => TMinus n l r
  | TMult _ l r => TMult n l r
  | TAtom _ l op r => TAtom n l op r
  | TNot _ c => TNot n c
  | TAnd _ l r => TAnd n l r
  | TOr _ l r => TOr n l r
  | TImp _ l r => TImp n l r
  | TEv _ i c => TEv n i c
  | TAlw _ i c => TAlw n i c
  | TUntil _ l i r => TUntil n l i r
  end.

Definition tz (t : tree T) : signal T := nz (node t).
Definition tup (t : tree T) : signal T := nup (node t).
Definition tlow (t : tree T) : signal T := nlow (node t).

Definition with_z (n : nst T) (z : signal T) : nst T :=
  mkN z (nup n) (nlow n) (start_time n) (end_time n).
Definition with_up (n : nst T) (z : signal T) : nst T :=
  mkN (nz n) z (nlow n) (start_time n) (end_time n).
Definition with_low (n : nst T) (z : signal T) : nst T :=
  mkN (nz n) (nup n) z (start_time n) (end_time n).
Definition with_horizon (n : nst T) (s e : T) : nst T :=
  mkN (nz n) (nup n) (nlow n) s e.

(** std::map::find on a parameter map. *)
Fixpoint lookup (k : string) (m : list (string * T)) : option T :=
  match m with
  | nil => None
  | (k', v) :: m' => if String.eqb k k' then Some v else lookup k m'
  end.

(** transducer.cpp:294-305, get_param: the value left in [val] on failure is 0. *)
Definition get_param (E : env T) (p : option string) : option T :=
  match p with
  | None => None
  | Some k => lookup k (e_params E)
  end.

(** if (!get_param(I->begin_str,a)) a = I->begin.  An empty begin_str is never a
    key of the map: the scanner only produces non-empty identifiers. *)
Definition bound_value (E : env T) (b : bound T) : T :=
  match get_param E (bstr b) with Some v => v | None => bnum b end.

(** ** Preparation of an evaluation *)

(** set_trace_data_ptr: transducer.h:59-62, 113-116, 155-159; signal_expr.h:52-56, 115-119. *)
Fixpoint set_trace (t : tree T) : tree T :=
  match t with
  | TSig n _ v c => TSig n (Some 0) v c
  | TConst n _ p v => TConst n (Some 0) p v
  | TAbs n c => TAbs n (set_trace c)
  | TPlus n l r => TPlus n (set_trace l) (set_trace r)
  | TMinus n l r => TMinus n (set_trace l) (set_trace r)
  | TMult n l r => TMult n (set_trace l) (set_trace r)
  | TAtom n l op r => TAtom n (set_trace l) op (set_trace r)
  | TNot n c => TNot n (set_trace c)
  | TAnd n l r => TAnd n (set_trace l) (set_trace r)
  | TOr n l r => TOr n (set_trace l) (set_trace r)
  | TImp n l r => TImp n (set_trace l) (set_trace r)
  | TEv n i c => TEv n i (set_trace c)
  | TAlw n i c => TAlw n i (set_trace c)
  | TUntil n l i r => TUntil n (set_trace l) i (set_trace r)
  end.

(** set_param_map_ptr: transducer.h:63-66, 117-120, 161-165; signal_expr.h:57-59, 121-128. *)
Fixpoint set_params (E : env T) (t : tree T) : tree T :=
  match t with
  | TSig n k v c => TSig n k v c
  | TConst n k p v =>
      TConst n k p (match get_param E p with Some w => w | None => v end)
  | TAbs n c => TAbs n (set_params E c)
  | TPlus n l r => TPlus n (set_params E l) (set_params E r)
  | TMinus n l r => TMinus n (set_params E l) (set_params E r)
  | TMult n l r => TMult n (set_params E l) (set_params E r)
  | TAtom n l op r => TAtom n (set_params E l) op (set_params E r)
  | TNot n c => TNot n (set_params E c)
  | TAnd n l r => TAnd n (set_params E l) (set_params E r)
  | TOr n l r => TOr n (set_params E l) (set_params E r)
  | TImp n l r => TImp n (set_params E l) (set_params E r)
  | TEv n i c => TEv n i (set_params E c)
  | TAlw n i c => TAlw n i (set_params E c)
  | TUntil n l i r => TUntil n (set_params E l) i (set_params E r)
  end.

(** reset: transducer.cpp:73-95. *)
Definition reset_node (n : nst T) : nst T :=
  mkN empty_signal empty_signal empty_signal (start_time n) (end_time n).
Fixpoint reset (t : tree T) : tree T :=
  match t with
  | TSig n k v c => TSig (reset_node n) k v c
  | TConst n k p v => TConst (reset_node n) k p v
  | TAbs n c => TAbs (reset_node n) (reset c)
  | TPlus n l r => TPlus (reset_node n) (reset l) (reset r)
  | TMinus n l r => TMinus (reset_node n) (reset l) (reset r)
  | TMult n l r => TMult (reset_node n) (reset l) (reset r)
  | TAtom n l op r => TAtom (reset_node n) (reset l) op (reset r)
  | TNot n c => TNot (reset_node n) (reset c)
  | TAnd n l r => TAnd (reset_node n) (reset l) (reset r)
  | TOr n l r => TOr (reset_node n) (reset l) (reset r)
  | TImp n l r => TImp (reset_node n) (reset l) (reset r)
  | TEv n i c => TEv (reset_node n) i (reset c)
  | TAlw n i c => TAlw (reset_node n) i (reset c)
  | TUntil n l i r => TUntil (reset_node n) (reset l) i (reset r)
  end.

(** set_horizon, transducer.h:51-55, and init_horizon, transducer.cpp:8-47.  The
    code calls init_horizon twice on each child (once inside set_horizon); the
    second call repeats the same assignments and is not modelled. *)
Fixpoint set_horizon (E : env T) (t : tree T) (s e : T) : tree T :=
  match t with
  | TSig n k v c => TSig (with_horizon n s e) k v c
  | TConst n k p v => TConst (with_horizon n s e) k p v
  | TAbs n c => TAbs (with_horizon n s e) (set_horizon E c s e)
  | TPlus n l r => TPlus (with_horizon n s e) (set_horizon E l s e) (set_horizon E r s e)
  | TMinus n l r => TMinus (with_horizon n s e) (set_horizon E l s e) (set_horizon E r s e)
  | TMult n l r => TMult (with_horizon n s e) (set_horizon E l s e) (set_horizon E r s e)
  | TAtom n l op r => TAtom (with_horizon n s e) (set_horizon E l s e) op (set_horizon E r s e)
  | TNot n c => TNot (with_horizon n s e) (set_horizon E c s e)
  | TAnd n l r => TAnd (with_horizon n s e) (set_horizon E l s e) (set_horizon E r s e)
  | TOr n l r => TOr (with_horizon n s e) (set_horizon E l s e) (set_horizon E r s e)
  | TImp n l r => TImp (with_horizon n s e) (set_horizon E l s e) (set_horizon E r s e)
  | TEv n i c =>
      TEv (with_horizon n s e) i
          (set_horizon E c (nadd s (bound_value E (ibegin i))) (nadd e (bound_value E (iend i))))
  | TAlw n i c =>
      TAlw (with_horizon n s e) i
          (set_horizon E c (nadd s (bound_value E (ibegin i))) (nadd e (bound_value E (iend i))))
  | TUntil n l i r =>
      TUntil (with_horizon n s e)
          (set_horizon E l s (nadd e (bound_value E (iend i)))) i
          (set_horizon E r (nadd s (bound_value E (ibegin i))) (nadd e (bound_value E (iend i))))
  end.

(** ** Reading the trace *)

(** stl_atom.cpp:82-88: the reading loop of signal_transducer; [rows] are the
    rows from td_idx on.  Returns z, t, v and the number of rows read.
    [(row)[0]] or [(row)[i]] outside the row is [UB]. *)
Fixpoint read_signal (ip : interpol) (col : nat) (e : T) (z : signal T) (t v : T)
         (rows : list (list T)) (k : nat) : res (signal T * T * T * nat) :=
  if nleb t e then
    match rows with
    | nil => Ok (z, t, v, k)
    | row :: rows' =>
        match nth_error row 0, nth_error row col with
        | Some t', Some v' =>
            z' <- appendSample ip z t' v' ;;
            read_signal ip col e z' t' v' rows' (S k)
        | _, _ => UB
        end
    end
  else Ok (z, t, v, k).

(** stl_atom.cpp:122-126: the reading loop of constant_transducer. *)
Fixpoint read_constant (ip : interpol) (e : T) (z : signal T) (t v : T)
         (rows : list (list T)) (k : nat) : res (signal T * T * nat) :=
  if nleb t e then
    match rows with
    | nil => Ok (z, t, k)
    | row :: rows' =>
        match nth_error row 0 with
        | Some t' =>
            z' <- appendSample ip z t' v ;;
            read_constant ip e z' t' v rows' (S k)
        | _ => UB
        end
    end
  else Ok (z, t, k).

(** stl_atom.cpp:91-97 and 128-136: trimming after reading; [t] is the last time read. *)
Definition trim_read (n : nst T) (z : signal T) (t v : T) : res (signal T) :=
  let z := if nltb (end_time n) t then mkSig (samples z) (beginTime z) (end_time n) else z in
  if nltb (start_time n) (endTime z)
  then resize z (start_time n) (smax (start_time n) (endTime z)) v
  else resize z (endTime z) (endTime z) v.

(** td_idx <= trace_data_ptr->size()-1 is an unsigned comparison: with an empty
    trace it is always true and at() throws std::out_of_range. *)
Definition rows_from (data : list (list T)) (k : nat) : list (list T) := skipn k data.

(** stl_atom.cpp:72-104, signal_transducer::compute_robustness. *)
Definition compute_signal (E : env T) (n : nst T) (td_idx : option nat) (col : nat)
  : res (T * nst T * option nat) :=
  '(z, t, v, k) <-
    (match col with
     | O => Ok (nz n, n0, n0, td_idx)
     | _ =>
         if nleb n0 (end_time n) then
           match td_idx with
           | None => UB
           | Some k =>
               match e_data E with
               | nil => Exn
               | _ =>
                   '(z, t, v, k') <- read_signal (e_ip E) col (end_time n) (nz n) n0 n0
                                       (rows_from (e_data E) k) k ;;
                   Ok (z, t, v, Some k')
               end
           end
         else Ok (nz n, n0, n0, td_idx)
     end) ;;
  z' <- trim_read n z t v ;;
  f <- deref (samples z') ;;
  Ok (value f, with_z n z', k).

(** stl_atom.cpp:106-141, constant_transducer::compute_robustness. *)
Definition compute_constant (E : env T) (n : nst T) (td_idx : option nat) (p : option string) (v : T)
  : res (T * nst T * option nat * T) :=
  let v := match p with
           | None => v
           | Some _ => match get_param E p with Some w => w | None => n0 end
           end in
  '(z, t, k) <-
    (if nleb n0 (end_time n) then
       match td_idx with
       | None => UB
       | Some k =>
           match e_data E with
           | nil => Exn
           | _ =>
               '(z, t, k') <- read_constant (e_ip E) (end_time n) (nz n) n0 v
                                (rows_from (e_data E) k) k ;;
               Ok (z, t, Some k')
           end
       end
     else Ok (nz n, n0, td_idx)) ;;
  z' <- trim_read n z t v ;;
  Ok (v, with_z n z', k, v).

(** ** Signal expressions (signal_expr.cpp) and atoms (stl_atom.cpp) *)

(** signal_expr.cpp:24-31. *)
Fixpoint abs_loop (ip : interpol) (z : signal T) (l : list (sample T)) : res (signal T) :=
  match l with
  | nil => Ok z
  | p :: l' => z' <- appendSample ip z (time p) (nabs (value p)) ;; abs_loop ip z' l'
  end.

(** signal_expr.cpp:44-53, 62-71, 80-89: the loop stops with the left operand
    only, so a shorter right operand is read past its end. *)
Fixpoint bin_loop (f : T -> T -> T) (ip : interpol) (z : signal T) (l r : list (sample T))
  : res (signal T) :=
  match l with
  | nil => Ok z
  | p :: l' =>
      q <- deref r ;;
      z' <- appendSample ip z (time p) (f (value p) (value q)) ;;
      bin_loop f ip z' l' (tl r)
  end.

(** stl_atom.cpp:34-47. *)
Fixpoint atom_loop (op : comparator) (ip : interpol) (z : signal T) (l r : list (sample T))
  : res (signal T) :=
  match l, r with
  | p :: l', q :: r' =>
      z' <- (match op with
             | LESSTHAN => appendSample3 ip z (time p) (nsub (value q) (value p)) (nsub (deriv q) (deriv p))
             | GREATERTHAN => appendSample3 ip z (time p) (nsub (value p) (value q)) (nsub (deriv p) (deriv q))
             end) ;;
      atom_loop op ip z' l' r'
  | _, _ => Ok z
  end.

(** stl_atom.cpp:32-64, the part of stl_atom::compute_robustness after the children. *)
Definition compute_atom (E : env T) (z : signal T) (op : comparator) (zl zr : signal T)
  : res (T * signal T) :=
  z1 <- atom_loop op (e_ip E) z (samples zl) (samples zr) ;;
  let z2 := mkSig (samples z1) (beginTime z1) (endTime zl) in
  z3 <- (match e_sem E with
         | SPACE => Ok z2
         | LEFT_TIME => compute_left_time_rob z2
         | RIGHT_TIME => compute_right_time_rob z2
         | BOOLEAN => Exn
         end) ;;
  f <- deref (samples z3) ;;
  Ok (value f, z3).

Definition front_value (z : signal T) : res T := f <- deref (samples z) ;; Ok (value f).

(** z.endTime = et on a copy, transducer.cpp:222-224 and 246-248. *)
Definition with_end (z : signal T) (e : T) : signal T := mkSig (samples z) (beginTime z) e.

(** ** compute_robustness *)

Fixpoint compute_rob (E : env T) (t : tree T) {struct t} : res (T * tree T) :=
  let M := e_M E in
  match t with
  | TSig n k var col =>
      '(v, n', k') <- compute_signal E n k col ;;
      Ok (v, TSig n' k' var col)
  | TConst n k p c =>
      '(v, n', k', c') <- compute_constant E n k p c ;;
      Ok (v, TConst n' k' p c')
  (* signal_expr.cpp:19-33 *)
  | TAbs n c =>
      '(_, c') <- compute_rob E c ;;
      z <- abs_loop (e_ip E) (nz n) (samples (tz c')) ;;
      v <- front_value z ;;
      Ok (v, TAbs (with_z n z) c')
  (* signal_expr.cpp:38-55 *)
  | TPlus n l r =>
      '(_, l') <- compute_rob E l ;;
      '(_, r') <- compute_rob E r ;;
      z <- bin_loop nadd (e_ip E) (nz n) (samples (tz l')) (samples (tz r')) ;;
      v <- front_value z ;;
      Ok (v, TPlus (with_z n z) l' r')
  (* signal_expr.cpp:57-73 *)
  | TMinus n l r =>
      '(_, l') <- compute_rob E l ;;
      '(_, r') <- compute_rob E r ;;
      z <- bin_loop nsub (e_ip E) (nz n) (samples (tz l')) (samples (tz r')) ;;
      v <- front_value z ;;
      Ok (v, TMinus (with_z n z) l' r')
  (* signal_expr.cpp:75-91 *)
  | TMult n l r =>
      '(_, l') <- compute_rob E l ;;
      '(_, r') <- compute_rob E r ;;
      z <- bin_loop nmul (e_ip E) (nz n) (samples (tz l')) (samples (tz r')) ;;
      v <- front_value z ;;
      Ok (v, TMult (with_z n z) l' r')
  (* stl_atom.cpp:24-70 *)
  | TAtom n l op r =>
      '(_, l') <- compute_rob E l ;;
      '(_, r') <- compute_rob E r ;;
      '(v, z) <- compute_atom E (nz n) op (tz l') (tz r') ;;
      Ok (v, TAtom (with_z n z) l' op r')
  (* transducer.cpp:145-150 *)
  | TNot n c =>
      '(_, c') <- compute_rob E c ;;
      let z := compute_not (tz c') in
      v <- front_value z ;;
      Ok (v, TNot (with_z n z) c')
  (* transducer.cpp:211-233 *)
  | TAnd n l r =>
      '(_, l') <- compute_rob E l ;;
      '(_, r') <- compute_rob E r ;;
      let et := smax (endTime (tz l')) (endTime (tz r')) in
      z <- compute_and (with_end (tz l') et) (with_end (tz r') et) ;;
      v <- front_value z ;;
      Ok (v, TAnd (with_z n z) l' r')
  (* transducer.cpp:235-257 *)
  | TOr n l r =>
      '(_, l') <- compute_rob E l ;;
      '(_, r') <- compute_rob E r ;;
      let et := smax (endTime (tz l')) (endTime (tz r')) in
      z <- compute_or (with_end (tz l') et) (with_end (tz r') et) ;;
      v <- front_value z ;;
      Ok (v, TOr (with_z n z) l' r')
  (* transducer.cpp:259-271; et is computed and not used *)
  | TImp n l r =>
      '(_, l') <- compute_rob E l ;;
      '(_, r') <- compute_rob E r ;;
      z <- compute_implies (tz l') (tz r') ;;
      v <- front_value z ;;
      Ok (v, TImp (with_z n z) l' r')
  (* transducer.cpp:152-186; line 177 resizes the child's signal *)
  | TEv n i c =>
      let a := bound_value E (ibegin i) in
      let b := bound_value E (iend i) in
      '(_, c') <- compute_rob E c ;;
      z <- compute_timed_eventually M (nz n) (tz c') a b ;;
      let et := smin (endTime z) (end_time n) in
      zc <- resize (tz c') (nsub et b) (endTime (tz c')) n0 ;;
      z' <- resize z (start_time n) (smax (start_time n) et) n0 ;;
      v <- front_value z' ;;
      Ok (v, TEv (with_z n z') i (set_node c' (with_z (node c') zc)))
  (* transducer.cpp:188-209 *)
  | TAlw n i c =>
      let a := bound_value E (ibegin i) in
      let b := bound_value E (iend i) in
      '(_, c') <- compute_rob E c ;;
      z <- compute_timed_globally M (nz n) (tz c') a b ;;
      let et := smin (endTime z) (end_time n) in
      z' <- resize z (start_time n) (smax (start_time n) et) n0 ;;
      v <- front_value z' ;;
      Ok (v, TAlw (with_z n z') i c')
  (* transducer.cpp:273-286 *)
  | TUntil n l i r =>
      let a := bound_value E (ibegin i) in
      let b := bound_value E (iend i) in
      '(_, l') <- compute_rob E l ;;
      '(_, r') <- compute_rob E r ;;
      z <- compute_timed_until M (nz n) (tz l') (tz r') a b ;;
      z' <- resize z n0 (endTime z) n0 ;;
      v <- front_value z' ;;
      Ok (v, TUntil (with_z n z') l' i r')
  end.

(** ** compute_lower_rob and compute_upper_rob (interval_transducer.cpp) *)

Definition is_empty (z : signal T) : bool :=
  match samples z with nil => true | _ => false end.

(** if (z.empty()) z.appendSample(start_time, v) *)
Definition fill_empty (ip : interpol) (z : signal T) (t v : T) : res (signal T) :=
  if is_empty z then appendSample ip z t v else Ok z.

(** interval_transducer.cpp:13-28 (lower) and 30-44 (upper), the default used by
    atoms and expressions.  Both append BOTTOM when the data stops before start_time. *)
Definition default_bound (E : env T) (up : bool) (r : T * tree T) : res (T * tree T) :=
  let t' := snd r in
  let n := node t' in
  if nltb (endTime (nz n)) (start_time n) then
    z <- appendSample (e_ip E) (if up then nup n else nlow n) (start_time n) (BOTTOM (e_M E)) ;;
    v <- front_value z ;;
    Ok (v, set_node t' (if up then with_up n z else with_low n z))
  else
    v <- front_value (nz n) ;;
    Ok (v, set_node t' (if up then with_up n (nz n) else with_low n (nz n))).

(** compute_upper_rob when [up] is true, compute_lower_rob otherwise. *)
Fixpoint compute_bound (E : env T) (up : bool) (t : tree T) {struct t} : res (T * tree T) :=
  let M := e_M E in
  let ip := e_ip E in
  let zb t := if up then tup t else tlow t in
  let zn n := if up then nup n else nlow n in
  let put n z := if up then with_up n z else with_low n z in
  let default := if up then TOP M else BOTTOM M in
  match t with
  | TSig _ _ _ _ | TConst _ _ _ _ | TAbs _ _ | TPlus _ _ _ | TMinus _ _ _ | TMult _ _ _
  | TAtom _ _ _ _ =>
      r <- compute_rob E t ;;
      default_bound E up r
  (* interval_transducer.cpp:131-149 *)
  | TNot n c =>
      '(_, c') <- compute_bound E (negb up) c ;;
      let zc := if up then tlow c' else tup c' in
      if is_empty zc then
        z <- appendSample ip (zn n) (start_time n) default ;;
        Ok (default, TNot (put n z) c')
      else
        let z := compute_not zc in
        v <- front_value z ;;
        Ok (v, TNot (put n z) c')
  (* interval_transducer.cpp:47-77 *)
  | TAnd n l r =>
      '(_, l') <- compute_bound E up l ;;
      '(_, r') <- compute_bound E up r ;;
      z <- compute_and (zb l') (zb r') ;;
      z' <- resize z (start_time n)
              (if up then endTime z else smin (endTime (zb l')) (endTime (zb r'))) default ;;
      z'' <- fill_empty ip z' (start_time n) default ;;
      v <- front_value z'' ;;
      Ok (v, TAnd (put n z'') l' r')
  (* interval_transducer.cpp:80-99 *)
  | TOr n l r =>
      '(_, l') <- compute_bound E up l ;;
      '(_, r') <- compute_bound E up r ;;
      z <- compute_or (zb l') (zb r') ;;
      z' <- resize z (start_time n)
              (if up then smin (endTime (zb l')) (endTime (zb r')) else endTime z) default ;;
      z'' <- fill_empty ip z' (start_time n) default ;;
      v <- front_value z'' ;;
      Ok (v, TOr (put n z'') l' r')
  (* interval_transducer.cpp:102-128 *)
  | TImp n l r =>
      '(_, l') <- compute_bound E (negb up) l ;;
      '(_, r') <- compute_bound E up r ;;
      let z1 := compute_not (if up then tlow l' else tup l') in
      z <- compute_or z1 (zb r') ;;
      z' <- resize z (start_time n)
              (if up then smin (endTime z1) (endTime (zb r')) else endTime z) default ;;
      z'' <- fill_empty ip z' (start_time n) default ;;
      v <- front_value z'' ;;
      Ok (v, TImp (put n z'') l' r')
  (* interval_transducer.cpp:152-219 *)
  | TEv n i c =>
      let a := bound_value E (ibegin i) in
      let b := bound_value E (iend i) in
      '(_, c') <- compute_bound E up c ;;
      if nltb (endTime (zb c')) a then
        z <- appendSample ip (zn n) (start_time n) default ;;
        Ok (default, TEv (put n z) i c')
      else
        z <- compute_timed_eventually M (zn n) (zb c') a b ;;
        z' <- (if up then
                 let et := smin (nadd (nsub (endTime z) b) a) (end_time n) in
                 resize z (start_time n) et n0
               else
                 let et := smin (endTime z) (end_time n) in
                 resize z (start_time n) (smax (start_time n) et) n0) ;;
        z'' <- fill_empty ip z' (start_time n) default ;;
        v <- front_value z'' ;;
        Ok (v, TEv (put n z'') i c')
  (* interval_transducer.cpp:222-290 *)
  | TAlw n i c =>
      let a := bound_value E (ibegin i) in
      let b := bound_value E (iend i) in
      '(_, c') <- compute_bound E up c ;;
      if nltb (endTime (zb c')) a then
        z <- appendSample ip (zn n) (start_time n) default ;;
        Ok (default, TAlw (put n z) i c')
      else
        z <- compute_timed_globally M (zn n) (zb c') a b ;;
        z' <- (if up then
                 let et := smin (endTime z) (end_time n) in
                 resize z (start_time n) (smax (start_time n) et) n0
               else
                 let et := smin (nadd (nsub (endTime z) b) a) (end_time n) in
                 resize z (start_time n) et n0) ;;
        z'' <- fill_empty ip z' (start_time n) default ;;
        v <- front_value z'' ;;
        Ok (v, TAlw (put n z'') i c')
  (* interval_transducer.cpp:293-332 *)
  | TUntil n l i r =>
      let a := bound_value E (ibegin i) in
      let b := bound_value E (iend i) in
      '(vl, l') <- compute_bound E up l ;;
      if neqb vl default then Ok (default, TUntil n l' i r)
      else
        '(vr, r') <- compute_bound E up r ;;
        if neqb vr default then Ok (default, TUntil n l' i r')
        else
          z <- compute_timed_until M (zn n) (zb l') (zb r') a b ;;
          let et := smin (if up then nsub (endTime z) b else endTime z) (end_time n) in
          z' <- resize z (start_time n) (smax (start_time n) et) n0 ;;
          v <- (if is_empty z' then Ok default else front_value z') ;;
          Ok (v, TUntil (put n z') l' i r')
  end.

(** ** Objects and formulas *)

(** The formula a transducer object stands for.  The number stored in a constant
    bound to a parameter is overwritten before each use and is not part of it. *)
Fixpoint skel (t : tree T) : fml T :=
  match t with
  | TSig _ _ v c => FSig v c
  | TConst _ _ p v => FConst p (match p with None => v | Some _ => n0 end)
  | TAbs _ c => FAbs (skel c)
  | TPlus _ l r => FPlus (skel l) (skel r)
  | TMinus _ l r => FMinus (skel l) (skel r)
  | TMult _ l r => FMult (skel l) (skel r)
  | TAtom _ l op r => FAtom (skel l) op (skel r)
  | TNot _ c => FNot (skel c)
  | TAnd _ l r => FAnd (skel l) (skel r)
  | TOr _ l r => FOr (skel l) (skel r)
  | TImp _ l r => FImp (skel l) (skel r)
  | TEv _ i c => FEv i (skel c)
  | TAlw _ i c => FAlw i (skel c)
  | TUntil _ l i r => FUntil (skel l) i (skel r)
  end.

(** transducer.h:39: state after construction. *)
Definition new_node : nst T := mkN empty_signal empty_signal empty_signal n0 n0.

(** The object built by the parser for a formula (stl_parser.ypp:162-375).  The
    constructors also propagate horizons from 0; set_horizon overwrites them. *)
Fixpoint build (f : fml T) : tree T :=
  match f with
  | FSig v c => TSig new_node None v c
  | FConst p v => TConst new_node None p v
  | FAbs c => TAbs new_node (build c)
  | FPlus l r => TPlus new_node (build l) (build r)
  | FMinus l r => TMinus new_node (build l) (build r)
  | FMult l r => TMult new_node (build l) (build r)
  | FAtom l op r => TAtom new_node (build l) op (build r)
  | FNot c => TNot new_node (build c)
  | FAnd l r => TAnd new_node (build l) (build r)
  | FOr l r => TOr new_node (build l) (build r)
  | FImp l r => TImp new_node (build l) (build r)
  | FEv i c => TEv new_node i (build c)
  | FAlw i c => TAlw new_node i (build c)
  | FUntil l i r => TUntil new_node (build l) i (build r)
  end.

(** clone: transducer.h:253-256, 287-291, 324-328, 361-366, 399-403, 435-439,
    469-474, 531-535; signal_expr.h:36-46, 105-113, 155-159, 189-194, 219-224, 249-254.
    Leaves keep td_idx and value; the signals and horizons are those of a new object. *)
Fixpoint clone (t : tree T) : tree T :=
  match t with
  | TSig _ k v c => TSig new_node k v c
  | TConst _ k p v => TConst new_node k p v
  | TAbs _ c => TAbs new_node (clone c)
  | TPlus _ l r => TPlus new_node (clone l) (clone r)
  | TMinus _ l r => TMinus new_node (clone l) (clone r)
  | TMult _ l r => TMult new_node (clone l) (clone r)
  | TAtom _ l op r => TAtom new_node (clone l) op (clone r)
  | TNot _ c => TNot new_node (clone c)
  | TAnd _ l r => TAnd new_node (clone l) (clone r)
  | TOr _ l r => TOr new_node (clone l) (clone r)
  | TImp _ l r => TImp new_node (clone l) (clone r)
  | TEv _ i c => TEv new_node i (clone c)
  | TAlw _ i c => TAlw new_node i (clone c)
  | TUntil _ l i r => TUntil new_node (clone l) i (clone r)
  end.

(** set_param: transducer.cpp:50-70, 98-111; signal_expr.h:95-103.  The
    per-transducer param_map it also updates is never read by an evaluation.  A
    numeric constant has the empty string as parameter name, so the name ""
    matches it. *)
Fixpoint tree_set_param (k : string) (w : T) (t : tree T) : tree T :=
  match t with
  | TSig n i v c => TSig n i v c
  | TConst n i p v =>
      TConst n i p (match p with
                    | Some k' => if String.eqb k k' then w else v
                    | None => if String.eqb k EmptyString then w else v
                    end)
  | TAbs n c => TAbs n (tree_set_param k w c)
  | TPlus n l r => TPlus n (tree_set_param k w l) (tree_set_param k w r)
  | TMinus n l r => TMinus n (tree_set_param k w l) (tree_set_param k w r)
  | TMult n l r => TMult n (tree_set_param k w l) (tree_set_param k w r)
  | TAtom n l op r => TAtom n (tree_set_param k w l) op (tree_set_param k w r)
  | TNot n c => TNot n (tree_set_param k w c)
  | TAnd n l r => TAnd n (tree_set_param k w l) (tree_set_param k w r)
  | TOr n l r => TOr n (tree_set_param k w l) (tree_set_param k w r)
  | TImp n l r => TImp n (tree_set_param k w l) (tree_set_param k w r)
  | TEv n i c => TEv n i (tree_set_param k w c)
  | TAlw n i c => TAlw n i (tree_set_param k w c)
  | TUntil n l i r => TUntil n (tree_set_param k w l) i (tree_set_param k w r)
  end.

(** stl_monitor.cpp:39-48 and stl_driver.cpp:529-537: one evaluation. *)
Definition prepare (E : env T) (t : tree T) (s e : T) : tree T :=
  set_horizon E (reset (set_params E (set_trace t))) s e.

Definition evaluate (E : env T) (t : tree T) (s e : T) : res (T * T * T * tree T) :=
  let t0 := prepare E t s e in
  '(rob, t1) <- compute_rob E t0 ;;
  '(low, t2) <- compute_bound E false t1 ;;
  '(up, t3) <- compute_bound E true t2 ;;
  Ok (rob, low, up, t3).

End Transducer.
