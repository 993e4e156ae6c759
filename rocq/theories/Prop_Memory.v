(** Properties of the memory formulas live in: C49, C50. *)
From Coq Require Import List Bool String Arith.
From Verif Require Import Base Driver Decimal Parser ParserTotal TestsClaims Memory MemoryClaims MemoryValue.
Import ListNotations.
Local Open Scope string_scope.

(** x[t] > 0, and the always of a formula. *)
Definition positive : fexp := Obj LAtom [Obj LSignal []; Obj LConstant []].
Definition always (f : fexp) : fexp := Obj LAlw [Obj LInterval []; f].

(** ** C49: no formula is used or deleted after it was deleted, and none is lost *)

(** Histories of constructions, copies, moves, assignments, destructions, definitions, rejected texts, evaluations and clears of any number of
    drivers and monitors: if no test is defined and no tests are run, nothing undefined happens.
    Missing: tests.  With them the property is false, see below. *)
Theorem C49_partial : forall os, Forall plain os -> exists w, run os start = Ok w.
Proof. exact never_dangling. Qed.
Print Assumptions C49_partial.
Definition a_history : list op :=
  [NewDriver; Define 0 "phi" positive; Define 0 "psi" (always (Ref "phi")); CopyDriver 0; GetMonitor 0 "psi"; Clear 0; Reject 1 [positive; Ref "psi"]; CopyMonitor 0; NewDriver;
   AssignDriver 2 1; MoveAssignDriver 0 1; UseFormula 2 "psi"; DestroyDriver 1; MoveMonitor 1; UseMonitor 2; AssignMonitor 0 2; DestroyDriver 0; UseAll 2;
   DestroyMonitor 0; DestroyMonitor 1; DestroyMonitor 2; DestroyDriver 2].
Example C49_case : Forall plain a_history.
Proof. repeat constructor. Qed.

(** With tests: as long as no driver that has tests is copied, none with tests in its queue is cleared, and tests are run only when the queue is not empty. *)
Theorem C49_tests_partial : forall os, along allowed os start -> exists w, run os start = Ok w.
Proof. exact never_dangling_tests. Qed.
Print Assumptions C49_tests_partial.
Definition a_history_with_tests : list op :=
  [NewDriver; Define 0 "phi" positive; AddTrace 0; AddNew 0 "t" (Ref "phi"); AddKnown 0 "t"; AddNew 0 "t" positive; MoveDriver 0; RunTests 1; Clear 1; DestroyDriver 0; DestroyDriver 1].
Fixpoint check (ok : world -> op -> bool) (os : list op) (w : world) : bool :=
  match os with
  | nil => true
  | o :: os' => ok w o && match step w o with Ok w' => check ok os' w' | _ => false end
  end.
Definition allowed_b (w : world) (o : op) : bool :=
  match o with
  | CopyDriver i | AssignDriver _ i => match the i (w_drivers w) with Some d => match o_tests d, List.concat (o_queue d) with [], [] => true | _, _ => false end | None => true end
  | Clear i => match the i (w_drivers w) with Some d => match List.concat (o_queue d) with [] => true | _ => false end | None => true end
  | RunTests i => match the i (w_drivers w) with Some d => match o_queue d with [] => false | _ => true end | None => true end
  | _ => true
  end.
Definition tidy_b (w : world) (o : op) : bool :=
  match o with
  | Define i x _ => match the i (w_drivers w) with Some d => match find x (o_formulas d) with Some _ => false | None => true end | None => true end
  | AddNew _ _ _ => false
  | _ => true
  end.
Lemma check_along : forall (P : world -> op -> Prop) ok, (forall w o, ok w o = true -> P w o) -> forall os w, check ok os w = true -> along P os w.
Proof.
  intros P ok H. induction os as [|o os IH]; intros w C; [exact I|]. cbn [check] in C. apply andb_prop in C. destruct C as [C1 C2]. split; [apply H; exact C1|].
  intros w' E. rewrite E in C2. apply IH. exact C2.
Qed.
Lemma allowed_b_ok : forall w o, allowed_b w o = true -> allowed w o.
Proof.
  intros w o H. destruct o; cbn [allowed allowed_b] in *; try exact I.
  - intros d E. rewrite E in H. unfold untested. destruct (o_tests d); [|discriminate]. destruct (List.concat (o_queue d)); [auto|discriminate].
  - right. intros d E. rewrite E in H. unfold untested. destruct (o_tests d); [|discriminate]. destruct (List.concat (o_queue d)); [auto|discriminate].
  - intros d E. rewrite E in H. destruct (List.concat (o_queue d)); [reflexivity|discriminate].
  - intros d E. rewrite E in H. destruct (o_queue d); discriminate.
Qed.
Lemma tidy_b_ok : forall w o, tidy_b w o = true -> tidy w o.
Proof.
  intros w o H. destruct o; cbn [tidy tidy_b] in *; try exact I; try discriminate. intros d E. rewrite E in H. destruct (find x (o_formulas d)); [discriminate|reflexivity].
Qed.
Example C49_tests_case : along allowed a_history_with_tests start.
Proof. apply (check_along _ _ allowed_b_ok). vm_compute. reflexivity. Qed.

(** Nothing is lost: when all drivers and monitors were destroyed, no object is left.
    Missing: histories in which a name is defined again, or a test is defined. *)
Theorem C49_no_leak_partial : forall os w, along allowed os start -> along tidy os start -> run os start = Ok w -> over w -> h_cells (w_heap w) = [].
Proof. exact nothing_lost. Qed.
Print Assumptions C49_no_leak_partial.
Example C49_no_leak_case : along allowed a_history start /\ along tidy a_history start /\ exists w, run a_history start = Ok w /\ over w.
Proof.
  split; [apply (check_along _ _ allowed_b_ok); vm_compute; reflexivity|]. split; [apply (check_along _ _ tidy_b_ok); vm_compute; reflexivity|].
  eexists. split; [vm_compute; reflexivity|]. split; intro i; unfold the; cbn; destruct i as [|[|[|[|[|i]]]]]; reflexivity.
Qed.

(** A copy of a driver with a test shares the formula of the test with the original; both delete it. *)
Theorem C49_refuted_copy : exists os, run (os ++ [DestroyDriver 0]) start <> UB /\ run (os ++ [DestroyDriver 0; DestroyDriver 1]) start = UB /\
  os = [NewDriver; AddTrace 0; AddNew 0 "t" positive; CopyDriver 0].
Proof. eexists. split; [|split; [|reflexivity]]; vm_compute; [discriminate|reflexivity]. Qed.
Print Assumptions C49_refuted_copy.
(** Clearing a driver deletes the formulas of the tests in its queue twice. *)
Theorem C49_refuted_clear : run [NewDriver; AddTrace 0; AddNew 0 "t" positive; Clear 0] start = UB.
Proof. vm_compute. reflexivity. Qed.
Print Assumptions C49_refuted_clear.
(** Running tests without any. *)
Theorem C49_refuted_run : run [NewDriver; RunTests 0] start = UB.
Proof. vm_compute. reflexivity. Qed.
Print Assumptions C49_refuted_run.
(** Defining a name again loses its first formula; the text "phi := ... phi := ..." does so. *)
Theorem C49_refuted_leak : exists os w, Forall plain os /\ run os start = Ok w /\ over w /\ h_cells (w_heap w) <> [] /\
  os = [NewDriver; Define 0 "phi" positive; Define 0 "phi" positive; DestroyDriver 0].
Proof.
  eexists. eexists. split; [|split; [|split; [|split; [|reflexivity]]]]; [repeat constructor|vm_compute; reflexivity| |vm_compute; discriminate].
  split; intro i; unfold the; cbn; destruct i as [|[|i]]; reflexivity.
Qed.
Print Assumptions C49_refuted_leak.
(** The parser does define a name twice: the second one is read before the first definition takes effect. *)
Example C49_leak_text : exists d, parse decimal (empty_driver, []) "signal x phi := x[t] > 0 phi := x[t] > 1" = Ok (true, d).
Proof. eexists. vm_compute. reflexivity. Qed.
(** Defining a test loses the formula the parser made. *)
Theorem C49_refuted_leak_test : exists os w, along allowed os start /\ run os start = Ok w /\ over w /\ h_cells (w_heap w) <> [] /\
  os = [NewDriver; AddTrace 0; AddNew 0 "t" positive; DestroyDriver 0].
Proof.
  eexists. eexists. split; [|split; [|split; [|split; [|reflexivity]]]]; [apply (check_along _ _ allowed_b_ok); vm_compute; reflexivity|vm_compute; reflexivity| |vm_compute; discriminate].
  split; intro i; unfold the; cbn; destruct i as [|[|i]]; reflexivity.
Qed.
Print Assumptions C49_refuted_leak_test.

(** ** C50: drivers and monitors are values *)

(** After any history without tests, every driver and every monitor has exactly the formulas it has if drivers,
    monitors and formulas are plain values: copies are equal to the original and do not change when the original does, and the other way round.
    Missing: tests, see the next theorem. *)
Theorem C50_partial : forall os, Forall plain os -> exists w, run os start = Ok w /\ agrees (w_heap w) w (vrun os vstart).
Proof. exact plain_values. Qed.
Print Assumptions C50_partial.
(** The same with tests, and for their formulas, under the conditions of C49_tests_partial. *)
Theorem C50_tests_partial : forall os w, along allowed os start -> run os start = Ok w -> agrees (w_heap w) w (vrun os vstart).
Proof. exact values. Qed.
Print Assumptions C50_tests_partial.
Example C50_case :
  let phi := Sh LAtom [Sh LSignal []; Sh LConstant []] in let psi := Sh LAlw [Sh LInterval []; phi] in let d := mkV [("phi", phi); ("psi", psi)] [] [] in
  vrun (firstn 12 a_history) vstart = mkVW [Some d; Some vnone; Some d] [Some (Some psi); Some (Some psi)].
Proof. vm_compute. reflexivity. Qed.
Example C50_tests_case : along allowed a_history_with_tests start /\ exists w, run a_history_with_tests start = Ok w.
Proof. split; [exact C49_tests_case|]. eexists. vm_compute. reflexivity. Qed.
(** Cloning the tests of the source would be needed: the copy of a driver with tests says something else once the original is gone. *)
Theorem C50_refuted_copy : exists os w d e p s, run os start = Ok w /\ the 1 (w_drivers w) = Some d /\ the 1 (v_drivers (vrun os vstart)) = Some e /\
  o_tests d = [("t", p)] /\ v_tests e = [("t", s)] /\ ~ shows (w_heap w) p s /\ os = [NewDriver; AddTrace 0; AddNew 0 "t" positive; CopyDriver 0; DestroyDriver 0].
Proof.
  exists [NewDriver; AddTrace 0; AddNew 0 "t" positive; CopyDriver 0; DestroyDriver 0]. do 5 eexists. split; [vm_compute; reflexivity|]. split; [vm_compute; reflexivity|]. split; [vm_compute; reflexivity|]. split; [reflexivity|]. split; [reflexivity|]. split; [|reflexivity].
  intro S. apply shows_def in S. destruct S as (cs & I & _). vm_compute in I. intuition discriminate.
Qed.
Print Assumptions C50_refuted_copy.
