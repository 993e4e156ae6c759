(** Model of who owns the objects a formula consists of: transducers and intervals are objects in memory, drivers and
    monitors hold pointers to them.  Numbers, signals and texts play no part here. *)
From Coq Require Import List Bool String Arith.
From Verif Require Import Base Driver.
Import ListNotations.

(** ** Objects in memory *)

(** The classes of include/transducer.h, include/signal_expr.h and include/interval.h. *)
Inductive label :=
| LSignal | LConstant | LAbs | LPlus | LMinus | LMult | LAtom | LNot | LAnd | LOr | LImplies | LEv | LAlw | LUntil | LInterval.

(** Addresses are not used twice; an address that is not in [h_cells] was freed.  An object is its class and the pointers
    child, childL, childR, I it has.  What else the objects contain belongs to them and is freed with them. *)
Definition ptr := nat.
Definition cell : Type := ptr * (label * list ptr).
Record heap := mkHeap { h_next : ptr; h_cells : list cell }.

Fixpoint get (p : ptr) (l : list cell) : option (label * list ptr) :=
  match l with
  | nil => None
  | (q, c) :: l' => if Nat.eqb p q then Some c else get p l'
  end.
Fixpoint remove (p : ptr) (l : list cell) : list cell :=
  match l with
  | nil => nil
  | (q, c) :: l' => if Nat.eqb p q then l' else (q, c) :: remove p l'
  end.

(** new. *)
Definition alloc (k : label) (cs : list ptr) (h : heap) : ptr * heap :=
  (h_next h, mkHeap (S (h_next h)) ((h_next h, (k, cs)) :: h_cells h)).
(** Giving back the memory of an object. *)
Definition free (p : ptr) (h : heap) : res heap :=
  match get p (h_cells h) with
  | Some _ => Ok (mkHeap (h_next h) (remove p (h_cells h)))
  | None => UB
  end.

Fixpoint each {A : Type} (f : A -> heap -> res heap) (l : list A) (h : heap) : res heap :=
  match l with
  | nil => Ok h
  | a :: l' => h' <- f a h ;; each f l' h'
  end.
Fixpoint collect {A : Type} (f : A -> heap -> res (ptr * heap)) (l : list A) (h : heap) : res (list ptr * heap) :=
  match l with
  | nil => Ok ([], h)
  | a :: l' => '(p, h1) <- f a h ;; '(ps, h2) <- collect f l' h1 ;; Ok (p :: ps, h2)
  end.

(** delete: the destructors transducer.h:127-129, 167-170, 205-207, 239-241 and the empty ones delete the objects pointed to,
    then the memory is freed.  (The interval is deleted before the children, not after them; this makes no difference.)
    A use of a pointer whose object does not exist is undefined. *)
Fixpoint delete_n (n : nat) (p : ptr) (h : heap) : res heap :=
  match n with
  | O => OutOfFuel
  | S n' =>
      match get p (h_cells h) with
      | None => UB
      | Some (_, cs) => h' <- each (delete_n n') cs h ;; free p h'
      end
  end.
(** clone: transducer.h:253-256, 287-291, 324-328, 361-366, 399-403, 435-439, 469-474, 531-535;
    signal_expr.h:36-46, 105-113, 155-159, 189-194, 219-224, 249-254. *)
Fixpoint clone_n (n : nat) (p : ptr) (h : heap) : res (ptr * heap) :=
  match n with
  | O => OutOfFuel
  | S n' =>
      match get p (h_cells h) with
      | None => UB
      | Some (k, cs) => '(ps, h') <- collect (clone_n n') cs h ;; Ok (alloc k ps h')
      end
  end.
(** Everything that only reads or changes the contents of the objects of a formula: evaluating, printing, setting parameters. *)
Fixpoint visit_n (n : nat) (p : ptr) (h : heap) : res heap :=
  match n with
  | O => OutOfFuel
  | S n' =>
      match get p (h_cells h) with
      | None => UB
      | Some (_, cs) => each (visit_n n') cs h
      end
  end.
Definition enough_for (h : heap) : nat := S (List.length (h_cells h)).
Definition delete (p : ptr) (h : heap) : res heap := delete_n (enough_for h) p h.
Definition clone (p : ptr) (h : heap) : res (ptr * heap) := clone_n (enough_for h) p h.
Definition visit (p : ptr) (h : heap) : res heap := visit_n (enough_for h) p h.

(** ** Formulas in texts *)

(** What the parser makes of a formula: one object for each operator, and a clone for each name of a formula
    (stl_parser.ypp:162-375).  A name that is not defined is an error and not a formula, see [closed]. *)
Inductive fexp := Ref (x : string) | Obj (k : label) (cs : list fexp).
Fixpoint closed (env : list (string * ptr)) (f : fexp) : bool :=
  match f with
  | Ref x => match find x env with Some _ => true | None => false end
  | Obj _ cs => forallb (closed env) cs
  end.
Fixpoint make (env : list (string * ptr)) (f : fexp) (h : heap) : res (ptr * heap) :=
  match f with
  | Ref x => match find x env with Some p => clone p h | None => UB end
  | Obj k cs =>
      '(ps, h') <- (fix go (cs : list fexp) (h : heap) : res (list ptr * heap) :=
         match cs with
         | nil => Ok ([], h)
         | c :: cs' => '(p, h1) <- make env c h ;; '(ps, h2) <- go cs' h1 ;; Ok (p :: ps, h2)
         end) cs h ;;
      Ok (alloc k ps h')
  end.

(** ** Drivers and monitors *)

(** The pointers of an STLDriver: formula_map, the formulas in stl_test_map and those in trace_test_queue
    (stl_driver.h:89, 98, 99, 21). *)
Record drv := mkD { o_formulas : list (string * ptr); o_tests : list (string * ptr); o_queue : list (list ptr) }.
(** An STLMonitor has one pointer, maybe null (stl_monitor.h:26).  Objects that were destroyed are [None]. *)
Record world := mkW { w_heap : heap; w_drivers : list (option drv); w_monitors : list (option (option ptr)) }.
Definition start : world := mkW (mkHeap 0 []) [] [].

Definition pointers {A : Type} (m : list (A * ptr)) : list ptr := map snd m.
Definition maybe (p : option ptr) : list ptr := match p with Some p => [p] | None => [] end.

Inductive op :=
(* drivers *)
| NewDriver | CopyDriver (i : nat) | MoveDriver (i : nat) | AssignDriver (i j : nat) | MoveAssignDriver (i j : nat) | DestroyDriver (i : nat)
| Define (i : nat) (x : string) (f : fexp)      (* x := f is parsed *)
| Reject (i : nat) (fs : list fexp)             (* the parser meets an error with these on its stack *)
| UseFormula (i : nat) (x : string)             (* get_online_rob *)
| UseAll (i : nat)                              (* set_param, print, dump *)
| Clear (i : nat)
(* tests *)
| AddTrace (i : nat)                            (* test t: ... { is parsed *)
| AddNew (i : nat) (x : string) (f : fexp)      (* x { f, ... } is parsed *)
| AddKnown (i : nat) (x : string)               (* x, a name of a test, is parsed *)
| RunTests (i : nat) | PopTrace (i : nat)
(* monitors *)
| GetMonitor (i : nat) (x : string)
| NewMonitor | CopyMonitor (i : nat) | MoveMonitor (i : nat) | AssignMonitor (i j : nat) | MoveAssignMonitor (i j : nat) | DestroyMonitor (i : nat)
| UseMonitor (i : nat).

Definition the {A : Type} (i : nat) (l : list (option A)) : option A := match nth_error l i with Some x => x | None => None end.
Fixpoint set {A : Type} (i : nat) (v : A) (l : list A) : list A :=
  match l, i with
  | nil, _ => nil
  | _ :: l', O => v :: l'
  | x :: l', S i' => x :: set i' v l'
  end.
Definition with_driver (w : world) (h : heap) (i : nat) (d : option drv) : world := mkW h (set i d (w_drivers w)) (w_monitors w).
Definition with_monitor (w : world) (h : heap) (i : nat) (m : option (option ptr)) : world := mkW h (w_drivers w) (set i m (w_monitors w)).
Definition add_driver (w : world) (h : heap) (d : drv) : world := mkW h (w_drivers w ++ [Some d]) (w_monitors w).
Definition add_monitor (w : world) (h : heap) (m : option ptr) : world := mkW h (w_drivers w) (w_monitors w ++ [Some m]).

(** formula_map[...] = pair.second->clone() for all pairs (stl_driver.cpp:71-74, 103-106). *)
Definition clone_map (m : list (string * ptr)) (h : heap) : res (list (string * ptr) * heap) :=
  '(ps, h') <- collect clone (pointers m) h ;; Ok (combine (map fst m) ps, h').
Definition maybe_clone (p : option ptr) (h : heap) : res (option ptr * heap) :=
  match p with Some p => '(q, h') <- clone p h ;; Ok (Some q, h') | None => Ok (None, h) end.

(** Copy assignment of the queue, a deque of structures that contain a deque of stl_test: the elements both sides have are assigned one
    by one, what is left of the target is destroyed, what is left of the source is copied.  Assigning an stl_test copies the
    pointer (stl_driver.h:14-45 declares a destructor and no assignment), destroying one deletes its formula. *)
Definition surplus (old new : list ptr) : list ptr := skipn (List.length new) old.
Fixpoint queue_surplus (old new : list (list ptr)) : list ptr :=
  match old, new with
  | o :: old', n :: new' => surplus o n ++ queue_surplus old' new'
  | _, _ => List.concat old
  end.

(** trace_test_queue.back().tests.push_back(...). *)
Fixpoint push_back {A : Type} (p : A) (q : list (list A)) : list (list A) :=
  match q with
  | nil => nil
  | [r] => [r ++ [p]]
  | r :: q' => r :: push_back p q'
  end.

(** One operation.  Operations on objects that do not exist do nothing: no program can call them. *)
Definition step (w : world) (o : op) : res world :=
  let h := w_heap w in
  match o with
  | NewDriver => Ok (add_driver w h (mkD [] [] []))
  (* stl_driver.cpp:53-75 *)
  | CopyDriver i =>
      match the i (w_drivers w) with
      | Some d => '(m, h1) <- clone_map (o_formulas d) h ;; Ok (add_driver w h1 (mkD m (o_tests d) (o_queue d)))
      | None => Ok w
      end
  (* stl_driver.cpp:111-118 *)
  | MoveDriver i =>
      match the i (w_drivers w) with
      | Some d => Ok (add_driver (with_driver w h i (Some (mkD [] [] []))) h d)
      | None => Ok w
      end
  (* stl_driver.cpp:77-109: the tests of the target are destroyed, those of the source are copied, with their pointers *)
  | AssignDriver i j =>
      match the i (w_drivers w), the j (w_drivers w) with
      | Some d, Some e =>
          if Nat.eqb i j then Ok w
          else
            h1 <- each delete (pointers (o_tests d)) h ;;
            h2 <- each delete (queue_surplus (o_queue d) (o_queue e)) h1 ;;
            h3 <- each delete (pointers (o_formulas d)) h2 ;;
            '(m, h4) <- clone_map (o_formulas e) h3 ;;
            Ok (with_driver w h4 i (Some (mkD m (o_tests e) (o_queue e))))
      | _, _ => Ok w
      end
  (* stl_driver.cpp:120-148 *)
  | MoveAssignDriver i j =>
      match the i (w_drivers w), the j (w_drivers w) with
      | Some d, Some e =>
          if Nat.eqb i j then Ok w
          else
            h1 <- each delete (pointers (o_tests d)) h ;;
            h2 <- each delete (List.concat (o_queue d)) h1 ;;
            h3 <- each delete (pointers (o_formulas d)) h2 ;;
            Ok (with_driver (with_driver w h3 j (Some (mkD [] [] []))) h3 i (Some e))
      | _, _ => Ok w
      end
  (* stl_driver.cpp:45-51, then the members *)
  | DestroyDriver i =>
      match the i (w_drivers w) with
      | Some d =>
          h1 <- each delete (pointers (o_formulas d)) h ;;
          h2 <- each delete (List.concat (o_queue d)) h1 ;;
          h3 <- each delete (pointers (o_tests d)) h2 ;;
          Ok (with_driver w h3 i None)
      | None => Ok w
      end
  (* stl_parser.ypp:378-382 *)
  | Define i x f =>
      match the i (w_drivers w) with
      | Some d =>
          if closed (o_formulas d) f then
            '(p, h1) <- make (o_formulas d) f h ;;
            Ok (with_driver w h1 i (Some (mkD (assign x p (o_formulas d)) (o_tests d) (o_queue d))))
          else Ok w
      | None => Ok w
      end
  (* stl_parser.ypp:129-132, the destructors *)
  | Reject i fs =>
      match the i (w_drivers w) with
      | Some d =>
          if forallb (closed (o_formulas d)) fs then
            '(ps, h1) <- collect (make (o_formulas d)) fs h ;;
            h2 <- each delete ps h1 ;;
            Ok (mkW h2 (w_drivers w) (w_monitors w))
          else Ok w
      | None => Ok w
      end
  (* stl_driver.cpp:513-541 *)
  | UseFormula i x =>
      match the i (w_drivers w) with
      | Some d =>
          match find x (o_formulas d) with
          | Some p => h1 <- visit p h ;; Ok (mkW h1 (w_drivers w) (w_monitors w))
          | None => Ok w
          end
      | None => Ok w
      end
  (* stl_driver.cpp:241-300, 380-392 *)
  | UseAll i =>
      match the i (w_drivers w) with
      | Some d => h1 <- each visit (pointers (o_formulas d)) h ;; Ok (mkW h1 (w_drivers w) (w_monitors w))
      | None => Ok w
      end
  (* stl_driver.cpp:196-239: a formula in the queue is deleted twice, by clear and by the destructor of stl_test *)
  | Clear i =>
      match the i (w_drivers w) with
      | Some d =>
          h1 <- each delete (pointers (o_formulas d)) h ;;
          h2 <- each delete (pointers (o_tests d)) h1 ;;
          h3 <- each (fun p h => h' <- delete p h ;; delete p h') (List.concat (o_queue d)) h2 ;;
          Ok (with_driver w h3 i (Some (mkD [] [] [])))
      | None => Ok w
      end
  (* stl_driver.cpp:361-369 *)
  | AddTrace i =>
      match the i (w_drivers w) with
      | Some d => Ok (with_driver w h i (Some (mkD (o_formulas d) (o_tests d) (o_queue d ++ [[]]))))
      | None => Ok w
      end
  (* stl_parser.ypp:492-499 and stl_driver.cpp:437-459.  The formula the parser made is not deleted; neither is the one a
     test of the same name had.  The first clone is deleted with the temporary it was made for. *)
  | AddNew i x f =>
      match the i (w_drivers w) with
      | Some d =>
          if closed (o_formulas d) f then
            '(p, h1) <- make (o_formulas d) f h ;;
            match o_queue d with
            | nil => Ok (with_driver w h1 i (Some d))
            | _ =>
                '(a, h2) <- clone p h1 ;;
                h3 <- delete a h2 ;;
                '(b, h4) <- clone p h3 ;;
                '(c, h5) <- clone p h4 ;;
                Ok (with_driver w h5 i (Some (mkD (o_formulas d) (assign x b (o_tests d)) (push_back c (o_queue d)))))
            end
          else Ok w
      | None => Ok w
      end
  (* stl_driver.cpp:394-435 *)
  | AddKnown i x =>
      match the i (w_drivers w) with
      | Some d =>
          match o_queue d, find x (o_tests d) with
          | _ :: _, Some p => '(c, h1) <- clone p h ;; Ok (with_driver w h1 i (Some (mkD (o_formulas d) (o_tests d) (push_back c (o_queue d)))))
          | _, _ => Ok w
          end
      | None => Ok w
      end
  (* stl_driver.cpp:302-359 *)
  | RunTests i =>
      match the i (w_drivers w) with
      | Some d =>
          match o_queue d with
          | nil => UB
          | r :: q =>
              h1 <- each (fun p h => h' <- visit p h ;; delete p h') r h ;;
              Ok (with_driver w h1 i (Some (mkD (o_formulas d) (o_tests d) q)))
          end
      | None => Ok w
      end
  (* stl_driver.h:303-307 *)
  | PopTrace i =>
      match the i (w_drivers w) with
      | Some d =>
          match o_queue d with
          | nil => Ok w
          | r :: q => h1 <- each delete r h ;; Ok (with_driver w h1 i (Some (mkD (o_formulas d) (o_tests d) q)))
          end
      | None => Ok w
      end
  (* stl_driver.cpp:474-511 *)
  | GetMonitor i x =>
      match the i (w_drivers w) with
      | Some d => '(m, h1) <- maybe_clone (find x (o_formulas d)) h ;; Ok (add_monitor w h1 m)
      | None => Ok w
      end
  (* stl_monitor.h:31 *)
  | NewMonitor => Ok (add_monitor w h None)
  (* stl_monitor.h:34-50 *)
  | CopyMonitor i =>
      match the i (w_monitors w) with
      | Some m => '(m', h1) <- maybe_clone m h ;; Ok (add_monitor w h1 m')
      | None => Ok w
      end
  (* stl_monitor.h:84-93 *)
  | MoveMonitor i =>
      match the i (w_monitors w) with
      | Some m => Ok (add_monitor (with_monitor w h i (Some None)) h m)
      | None => Ok w
      end
  (* stl_monitor.h:53-81 *)
  | AssignMonitor i j =>
      match the i (w_monitors w), the j (w_monitors w) with
      | Some m, Some m' =>
          if Nat.eqb i j then Ok w
          else
            h1 <- each delete (maybe m) h ;;
            '(p, h2) <- maybe_clone m' h1 ;;
            Ok (with_monitor w h2 i (Some p))
      | _, _ => Ok w
      end
  (* stl_monitor.h:96-118 *)
  | MoveAssignMonitor i j =>
      match the i (w_monitors w), the j (w_monitors w) with
      | Some m, Some m' =>
          if Nat.eqb i j then Ok w
          else
            h1 <- each delete (maybe m) h ;;
            Ok (with_monitor (with_monitor w h1 j (Some None)) h1 i (Some m'))
      | _, _ => Ok w
      end
  (* stl_monitor.h:120-126 *)
  | DestroyMonitor i =>
      match the i (w_monitors w) with
      | Some m => h1 <- each delete (maybe m) h ;; Ok (with_monitor w h1 i None)
      | None => Ok w
      end
  (* stl_monitor.h:195-210, stl_monitor.cpp: set_param and evaluations *)
  | UseMonitor i =>
      match the i (w_monitors w) with
      | Some m => h1 <- each visit (maybe m) h ;; Ok (mkW h1 (w_drivers w) (w_monitors w))
      | None => Ok w
      end
  end.
Fixpoint run (os : list op) (w : world) : res world :=
  match os with
  | nil => Ok w
  | o :: os' => w' <- step w o ;; run os' w'
  end.
