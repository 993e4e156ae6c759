(** Outcomes of a modelled C++ computation. *)
From Coq Require Import List.
Import ListNotations.

(** [UB]: undefined behaviour (invalid iterator or empty container dereferenced,
    uninitialised member read, ...).
    [Exn]: a C++ exception leaves the call.
    [NonFinite]: a division by zero on the rational instance (inf/NaN on doubles).
    [OutOfFuel]: the loop bound given by the model was reached. *)
Inductive res (A : Type) : Type :=
| Ok (a : A)
| UB
| Exn
| NonFinite
| OutOfFuel.
Arguments Ok {A} a.
Arguments UB {A}.
Arguments Exn {A}.
Arguments NonFinite {A}.
Arguments OutOfFuel {A}.

Definition bind {A B} (x : res A) (f : A -> res B) : res B :=
  match x with
  | Ok a => f a
  | UB => UB
  | Exn => Exn
  | NonFinite => NonFinite
  | OutOfFuel => OutOfFuel
  end.

Notation "x <- e ;; k" := (bind e (fun x => k))
  (at level 61, e at next level, right associativity).
Notation "' p <- e ;; k" := (bind e (fun x => match x with p => k end))
  (at level 61, p pattern, e at next level, right associativity).

(** Dereference of an iterator (the remaining list). *)
Definition deref {A} (l : list A) : res A :=
  match l with nil => UB | a :: _ => Ok a end.

Definition of_div {A} (o : option A) : res A :=
  match o with Some a => Ok a | None => NonFinite end.

(** [back()] of a deque. *)
Fixpoint back {A} (l : list A) : res A :=
  match l with
  | nil => UB
  | a :: nil => Ok a
  | _ :: l' => back l'
  end.

(** Pop from the back while a condition holds. *)
Fixpoint drop_while {A} (f : A -> bool) (l : list A) : list A :=
  match l with
  | nil => nil
  | a :: l' => if f a then drop_while f l' else l
  end.

Definition pop_back_while {A} (f : A -> bool) (l : list A) : list A :=
  rev (drop_while f (rev l)).
