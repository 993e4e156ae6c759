(** Histories of operations: no formula is used after it was deleted, none is deleted twice, none is lost. *)
From Coq Require Import List Bool String Arith Lia Permutation.
From Verif Require Import Base Driver Memory MemoryProof.
Import ListNotations.

(** ** The pointers of the program *)
Definition owned (d : drv) : list ptr := pointers (o_formulas d) ++ pointers (o_tests d) ++ List.concat (o_queue d).
Definition of_driver (d : option drv) : list ptr := match d with Some d => owned d | None => [] end.
Definition of_monitor (m : option (option ptr)) : list ptr := match m with Some m => maybe m | None => [] end.
Definition roots (w : world) : list ptr := flat_map of_driver (w_drivers w) ++ flat_map of_monitor (w_monitors w).
Definition Inv (w : world) (L : list cell) : Prop := own (w_heap w) (roots w) L.

(** ** What goes wrong with tests, and what is lost *)

Definition untested (d : drv) : Prop := o_tests d = [] /\ List.concat (o_queue d) = [].
(** Drivers with tests are not copied, drivers with tests in the queue are not cleared, no tests are run when there are none. *)
Definition allowed (w : world) (o : op) : Prop :=
  match o with
  | CopyDriver i => forall d, the i (w_drivers w) = Some d -> untested d
  | AssignDriver i j => i = j \/ forall d, the j (w_drivers w) = Some d -> untested d
  | Clear i => forall d, the i (w_drivers w) = Some d -> List.concat (o_queue d) = []
  | RunTests i => forall d, the i (w_drivers w) = Some d -> o_queue d <> []
  | _ => True
  end.
(** No formula is defined a second time, no test is defined. *)
Definition tidy (w : world) (o : op) : Prop :=
  match o with
  | Define i x f => forall d, the i (w_drivers w) = Some d -> find x (o_formulas d) = None
  | AddNew _ _ _ => False
  | _ => True
  end.
(** Along a whole history. *)
Fixpoint along (P : world -> op -> Prop) (os : list op) (w : world) : Prop :=
  match os with
  | nil => True
  | o :: os' => P w o /\ forall w', step w o = Ok w' -> along P os' w'
  end.
(** No test is defined, and none are run. *)
Definition plain (o : op) : Prop :=
  match o with
  | AddNew _ _ _ | RunTests _ => False
  | _ => True
  end.

(** ** Updating one object *)
Lemma set_roots : forall A (f : option A -> list ptr) l i d, the i l = Some d ->
  exists rest, Permutation (flat_map f l) (f (Some d) ++ rest) /\ forall v, Permutation (flat_map f (set i v l)) (f v ++ rest).
Proof.
  intros A f l. unfold the. induction l as [|x l IH]; intros i d H; [destruct i; discriminate H|]. destruct i as [|i]; cbn [nth_error set flat_map] in *.
  - subst x. exists (flat_map f l). split; [reflexivity|]. intro v. reflexivity.
  - destruct (IH i d H) as (r & P & Q). exists (f x ++ r). split.
    + rewrite P. rewrite !app_assoc. apply Permutation_app_tail. apply Permutation_app_comm.
    + intro v. rewrite (Q v). rewrite !app_assoc. apply Permutation_app_tail. apply Permutation_app_comm.
Qed.
Lemma the_set : forall A (l : list (option A)) i j v, i <> j -> the i (set j v l) = the i l.
Proof.
  intros A l. unfold the. induction l as [|x l IH]; intros i j v H; [destruct j; reflexivity|]. destruct i as [|i], j as [|j]; cbn [set nth_error]; try reflexivity; [contradiction|].
  apply IH. congruence.
Qed.
Lemma set_same : forall A (l : list (option A)) i d, the i l = Some d -> set i (Some d) l = l.
Proof.
  intros A l. unfold the. induction l as [|x l IH]; intros i d H; [destruct i; reflexivity|]. destruct i as [|i]; cbn [set nth_error] in *; [congruence|]. f_equal. apply IH. exact H.
Qed.
Lemma set_roots2 : forall A (f : option A -> list ptr) l i j d e, i <> j -> the i l = Some d -> the j l = Some e ->
  exists rest, Permutation (flat_map f l) (f (Some d) ++ f (Some e) ++ rest) /\
    forall v u, Permutation (flat_map f (set i v (set j u l))) (f v ++ f u ++ rest).
Proof.
  intros A f l. unfold the. induction l as [|x l IH]; intros i j d e NE H1 H2; [destruct i; discriminate H1|].
  destruct i as [|i], j as [|j]; cbn [nth_error set flat_map] in *; [contradiction| | |].
  - subst x. destruct (set_roots A f l j e H2) as (r & P & Q). exists r. split; [apply Permutation_app_head; exact P|]. intros v u. apply Permutation_app_head. apply Q.
  - subst x. destruct (set_roots A f l i d H1) as (r & P & Q). exists r. split.
    + rewrite P. rewrite !app_assoc. apply Permutation_app_tail. apply Permutation_app_comm.
    + intros v u. rewrite (Q v). rewrite !app_assoc. apply Permutation_app_tail. apply Permutation_app_comm.
  - destruct (IH i j d e ltac:(congruence) H1 H2) as (r & P & Q). exists (f x ++ r). split.
    + rewrite P. rewrite !app_assoc. apply Permutation_app_tail. rewrite <- app_assoc. rewrite (Permutation_app_comm (f x)). reflexivity.
    + intros v u. rewrite (Q v u). rewrite !app_assoc. apply Permutation_app_tail. rewrite <- app_assoc. rewrite (Permutation_app_comm (f x)). reflexivity.
Qed.

(** ** Small facts *)
Lemma own_forgets : forall A h B L, own h (A ++ B) L -> exists L', own h B (L' ++ L) /\ (A = [] -> L' = []).
Proof.
  induction A as [|p A IH]; intros h B L O; [exists []; auto|]. cbn [app] in O. destruct (own_forget _ _ _ _ O) as (t & O1).
  destruct (IH _ _ _ O1) as (L' & O2 & _). exists (L' ++ cells t). rewrite <- app_assoc. split; [exact O2|discriminate].
Qed.
Lemma assign_pointers : forall x p (m : list (string * ptr)), exists A, Permutation (p :: pointers m) (A ++ pointers (assign x p m)) /\ (find x m = None -> A = []).
Proof.
  intros x p m. induction m as [|[k q] m (A & P & F)]; cbn [assign find pointers map snd]; [exists []; auto|].
  destruct (String.eqb x k).
  - exists [q]. split; [apply perm_swap|discriminate].
  - exists A. cbn [map snd]. split; [|exact F]. rewrite perm_swap. unfold pointers in P. rewrite P. apply Permutation_middle.
Qed.
Lemma push_concat : forall (c : ptr) q, q <> [] -> Permutation (List.concat (push_back c q)) (c :: List.concat q).
Proof.
  intros c q. induction q as [|r q IH]; intro H; [contradiction|]. destruct q as [|r' q].
  - cbn [push_back List.concat]. rewrite !app_nil_r. symmetry. apply Permutation_cons_append.
  - change (push_back c (r :: r' :: q)) with (r :: push_back c (r' :: q)). cbn [List.concat] in *. rewrite (IH ltac:(discriminate)). symmetry. apply Permutation_middle.
Qed.
Lemma surplus_all : forall old new, List.concat new = [] -> queue_surplus old new = List.concat old.
Proof.
  induction old as [|o old IH]; intros new H; [reflexivity|]. destruct new as [|n new]; [reflexivity|]. cbn [List.concat] in H. apply app_eq_nil in H. destruct H as [-> H].
  cbn [queue_surplus List.concat]. rewrite (IH new H). reflexivity.
Qed.
Lemma combine_pointers : forall (ks : list string) (ps : list ptr), List.length ks = List.length ps -> pointers (combine ks ps) = ps.
Proof. unfold pointers. induction ks as [|k ks IH]; intros [|p ps] H; try reflexivity; try discriminate H. cbn. f_equal. apply IH. cbn in H. congruence. Qed.
Lemma own_clone_map : forall m h ps L, own h ps L -> incl (pointers m) ps -> exists m' h', clone_map m h = Ok (m', h') /\ own h' (pointers m' ++ ps) L.
Proof.
  intros m h ps L O I. destruct (own_clones _ _ _ _ O I) as (rs & h' & E & O' & LN). exists (combine (map fst m) rs), h'. unfold clone_map. rewrite E. cbn [bind].
  split; [reflexivity|]. rewrite combine_pointers; [exact O'|]. rewrite LN. unfold pointers. rewrite !map_length. reflexivity.
Qed.
Lemma own_maybe_clone : forall m h ps L, own h ps L -> incl (maybe m) ps -> exists m' h', maybe_clone m h = Ok (m', h') /\ own h' (maybe m' ++ ps) L.
Proof.
  intros [p|] h ps L O I; [|exists None, h; auto]. destruct (own_clone h ps L p O) as (q & h' & E & O'); [apply I; left; reflexivity|].
  exists (Some q), h'. cbn [maybe_clone]. rewrite E. cbn [bind]. auto.
Qed.
Lemma own_run : forall r h ps L, own h (r ++ ps) L -> exists h', each (fun p h => h' <- visit p h ;; delete p h') r h = Ok h' /\ own h' ps L.
Proof.
  induction r as [|p r IH]; intros h ps L O; [exists h; auto|]. cbn [each]. rewrite (own_visit _ _ _ p O) by (left; reflexivity). cbn [bind].
  destruct (own_delete1 _ _ _ _ O) as (h1 & E1 & O1). rewrite E1. cbn [bind]. apply IH. exact O1.
Qed.

(** ** One operation *)
Ltac perm := unfold roots, Inv in *; cbn [w_heap w_drivers w_monitors with_driver with_monitor add_driver add_monitor] in *.
Definition good (w : world) (o : op) (L : list cell) : Prop :=
  exists w' L', step w o = Ok w' /\ Inv w' (L' ++ L) /\ (tidy w o -> L' = []).
Lemma same : forall w o L, step w o = Ok w -> Inv w L -> good w o L.
Proof. intros w o L E I. exists w, []. auto. Qed.
Lemma fine : forall w o L w', step w o = Ok w' -> Inv w' L -> good w o L.
Proof. intros w o L w' E I. exists w', []. auto. Qed.

Lemma driver_at : forall w i d L, Inv w L -> the i (w_drivers w) = Some d ->
  exists rest, own (w_heap w) (owned d ++ rest) L /\ forall h v, Permutation (roots (with_driver w h i v)) (of_driver v ++ rest).
Proof.
  intros w i d L I H. destruct (set_roots drv of_driver _ _ _ H) as (r & P & Q). exists (r ++ flat_map of_monitor (w_monitors w)). split.
  - eapply own_perm; [|exact I]. unfold roots. rewrite P. cbn [of_driver]. rewrite app_assoc. reflexivity.
  - intros h v. unfold roots. cbn [with_driver w_drivers w_monitors]. rewrite (Q v), app_assoc. reflexivity.
Qed.
Lemma monitor_at : forall w i m L, Inv w L -> the i (w_monitors w) = Some m ->
  exists rest, own (w_heap w) (maybe m ++ rest) L /\ forall h v, Permutation (roots (with_monitor w h i v)) (of_monitor v ++ rest).
Proof.
  intros w i m L I H. destruct (set_roots (option ptr) of_monitor _ _ _ H) as (r & P & Q). exists (r ++ flat_map of_driver (w_drivers w)). split.
  - eapply own_perm; [|exact I]. unfold roots. rewrite P. cbn [of_monitor]. rewrite Permutation_app_comm, app_assoc. reflexivity.
  - intros h v. unfold roots. cbn [with_monitor w_drivers w_monitors]. rewrite (Q v), Permutation_app_comm, app_assoc. reflexivity.
Qed.
Lemma drivers_at : forall w i j d e L, Inv w L -> i <> j -> the i (w_drivers w) = Some d -> the j (w_drivers w) = Some e ->
  exists rest, own (w_heap w) (owned d ++ owned e ++ rest) L /\
    forall h v h' u, Permutation (roots (with_driver (with_driver w h' j u) h i v)) (of_driver v ++ of_driver u ++ rest).
Proof.
  intros w i j d e L I NE H1 H2. destruct (set_roots2 drv of_driver _ _ _ _ _ NE H1 H2) as (r & P & Q). exists (r ++ flat_map of_monitor (w_monitors w)). split.
  - eapply own_perm; [|exact I]. unfold roots. rewrite P. cbn [of_driver]. rewrite <- !app_assoc. reflexivity.
  - intros h v h' u. unfold roots. cbn [with_driver w_drivers w_monitors]. rewrite (Q v u), <- !app_assoc. reflexivity.
Qed.
Lemma monitors_at : forall w i j d e L, Inv w L -> i <> j -> the i (w_monitors w) = Some d -> the j (w_monitors w) = Some e ->
  exists rest, own (w_heap w) (maybe d ++ maybe e ++ rest) L /\
    forall h v h' u, Permutation (roots (with_monitor (with_monitor w h' j u) h i v)) (of_monitor v ++ of_monitor u ++ rest).
Proof.
  intros w i j d e L I NE H1 H2. destruct (set_roots2 (option ptr) of_monitor _ _ _ _ _ NE H1 H2) as (r & P & Q). exists (r ++ flat_map of_driver (w_drivers w)). split.
  - eapply own_perm; [|exact I]. unfold roots. rewrite P. cbn [of_monitor]. rewrite Permutation_app_comm, <- !app_assoc. reflexivity.
  - intros h v h' u. unfold roots. cbn [with_monitor w_drivers w_monitors]. rewrite (Q v u), Permutation_app_comm, <- !app_assoc. reflexivity.
Qed.
Lemma add_driver_roots : forall w h d, Permutation (roots (add_driver w h d)) (owned d ++ roots w).
Proof.
  intros w h d. unfold roots. cbn [add_driver w_drivers w_monitors]. rewrite flat_map_app. cbn [flat_map of_driver]. rewrite app_nil_r.
  rewrite (Permutation_app_comm (flat_map of_driver (w_drivers w)) (owned d)), app_assoc. reflexivity.
Qed.
Lemma add_monitor_roots : forall w h m, Permutation (roots (add_monitor w h m)) (maybe m ++ roots w).
Proof.
  intros w h m. unfold roots. cbn [add_monitor w_drivers w_monitors]. rewrite flat_map_app. cbn [flat_map of_monitor]. rewrite app_nil_r.
  rewrite app_assoc, Permutation_app_comm. reflexivity.
Qed.
Lemma set_back : forall w h i d, the i (w_drivers w) = Some d -> with_driver w h i (Some d) = mkW h (w_drivers w) (w_monitors w).
Proof. intros w h i d H. unfold with_driver. rewrite set_same by exact H. reflexivity. Qed.
Lemma driver_owned : forall w i d, the i (w_drivers w) = Some d -> incl (owned d) (roots w).
Proof.
  intros w i d H x X. unfold roots. apply in_or_app. left. unfold the in H. destruct (nth_error (w_drivers w) i) as [o|] eqn:E; [|discriminate]. subst o.
  apply in_flat_map. exists (Some d). split; [eapply nth_error_In; exact E|exact X].
Qed.
Lemma monitor_owned : forall w i m, the i (w_monitors w) = Some m -> incl (maybe m) (roots w).
Proof.
  intros w i m H x X. unfold roots. apply in_or_app. right. unfold the in H. destruct (nth_error (w_monitors w) i) as [o|] eqn:E; [|discriminate]. subst o.
  apply in_flat_map. exists (Some m). split; [eapply nth_error_In; exact E|exact X].
Qed.
Lemma formulas_owned : forall d, incl (pointers (o_formulas d)) (owned d).
Proof. intros d x X. unfold owned. apply in_or_app. left. exact X. Qed.

Lemma step_good : forall w o L, Inv w L -> allowed w o -> good w o L.
Proof.
  intros w o L I A.
  destruct o as [ |i|i|i j|i j|i|i x f|i fs|i x|i|i|i|i x f|i x|i|i|i x| |i|i|i j|i j|i|i]; cbn [allowed] in A.
  - (* NewDriver *) eapply fine; [reflexivity|]. unfold Inv. eapply own_perm; [symmetry; apply add_driver_roots|]. exact I.
  - (* CopyDriver *)
    destruct (the i (w_drivers w)) as [d|] eqn:H; [|apply same; [cbn [step]; rewrite H; reflexivity|exact I]].
    destruct (A d eq_refl) as [U1 U2].
    destruct (own_clone_map (o_formulas d) (w_heap w) (roots w) L I) as (m & h1 & E1 & O1); [intros x X; eapply driver_owned; [exact H|apply formulas_owned; exact X]|].
    eapply fine; [cbn [step]; rewrite H; cbn [bind]; rewrite E1; reflexivity|]. unfold Inv. eapply own_perm; [symmetry; apply add_driver_roots|].
    unfold owned. cbn [o_formulas o_tests o_queue]. rewrite U1, U2. cbn [pointers map app]. rewrite app_nil_r. exact O1.
  - (* MoveDriver *)
    destruct (the i (w_drivers w)) as [d|] eqn:H; [|apply same; [cbn [step]; rewrite H; reflexivity|exact I]].
    eapply fine; [cbn [step]; rewrite H; reflexivity|]. unfold Inv. eapply own_perm; [symmetry; apply add_driver_roots|].
    destruct (driver_at _ _ _ _ I H) as (r & O & R). cbn [add_driver w_heap]. eapply own_perm; [|exact O]. apply Permutation_app_head. rewrite R. reflexivity.
  - (* AssignDriver *)
    destruct (the i (w_drivers w)) as [d|] eqn:H; [|apply same; [cbn [step]; rewrite H; reflexivity|exact I]].
    destruct (the j (w_drivers w)) as [e|] eqn:H'; [|apply same; [cbn [step]; rewrite H, H'; reflexivity|exact I]].
    destruct (Nat.eqb_spec i j) as [->|NE]; [apply same; [cbn [step]; rewrite H, Nat.eqb_refl; reflexivity|exact I]|].
    destruct A as [A|A]; [contradiction|]. destruct (A e eq_refl) as [U1 U2].
    destruct (drivers_at _ _ _ _ _ _ I NE H H') as (r & O & R). unfold owned at 1 in O.
    assert (O0 : own (w_heap w) (pointers (o_tests d) ++ List.concat (o_queue d) ++ pointers (o_formulas d) ++ owned e ++ r) L).
    { eapply own_perm; [|exact O]. rewrite <- !app_assoc. rewrite (Permutation_app_comm (pointers (o_formulas d))). rewrite <- !app_assoc.
      do 2 apply Permutation_app_head. rewrite app_assoc. rewrite Permutation_app_comm. reflexivity. }
    destruct (own_delete _ _ _ _ O0) as (h1 & E1 & O1). destruct (own_delete _ _ _ _ O1) as (h2 & E2 & O2). destruct (own_delete _ _ _ _ O2) as (h3 & E3 & O3).
    destruct (own_clone_map (o_formulas e) h3 _ L O3) as (m & h4 & E4 & O4); [intros x X; apply in_or_app; left; apply formulas_owned; exact X|].
    eapply fine.
    { cbn [step]. rewrite H, H'. destruct (Nat.eqb_spec i j) as [|_]; [contradiction|]. rewrite E1. cbn [bind]. rewrite surplus_all by exact U2. rewrite E2. cbn [bind]. rewrite E3. cbn [bind].
      rewrite E4. cbn [bind]. reflexivity. }
    unfold Inv. cbn [with_driver w_heap]. eapply own_perm; [|exact O4].
    specialize (R h4 (Some (mkD m (o_tests e) (o_queue e))) (w_heap w) (Some e)). rewrite (set_back w (w_heap w) j e H') in R.
    symmetry. etransitivity; [exact R|]. cbn [of_driver]. unfold owned at 1. cbn [o_formulas o_tests o_queue]. rewrite U1, U2. cbn [pointers map app]. rewrite app_nil_r. reflexivity.
  - (* MoveAssignDriver *)
    destruct (the i (w_drivers w)) as [d|] eqn:H; [|apply same; [cbn [step]; rewrite H; reflexivity|exact I]].
    destruct (the j (w_drivers w)) as [e|] eqn:H'; [|apply same; [cbn [step]; rewrite H, H'; reflexivity|exact I]].
    destruct (Nat.eqb_spec i j) as [->|NE]; [apply same; [cbn [step]; rewrite H, Nat.eqb_refl; reflexivity|exact I]|].
    destruct (drivers_at _ _ _ _ _ _ I NE H H') as (r & O & R). unfold owned at 1 in O.
    assert (O0 : own (w_heap w) (pointers (o_tests d) ++ List.concat (o_queue d) ++ pointers (o_formulas d) ++ owned e ++ r) L).
    { eapply own_perm; [|exact O]. rewrite <- !app_assoc. rewrite (Permutation_app_comm (pointers (o_formulas d))). rewrite <- !app_assoc.
      do 2 apply Permutation_app_head. rewrite app_assoc. rewrite Permutation_app_comm. reflexivity. }
    destruct (own_delete _ _ _ _ O0) as (h1 & E1 & O1). destruct (own_delete _ _ _ _ O1) as (h2 & E2 & O2). destruct (own_delete _ _ _ _ O2) as (h3 & E3 & O3).
    eapply fine.
    { cbn [step]. rewrite H, H'. destruct (Nat.eqb_spec i j) as [|_]; [contradiction|]. rewrite E1. cbn [bind]. rewrite E2. cbn [bind]. rewrite E3. cbn [bind]. reflexivity. }
    unfold Inv. cbn [with_driver w_heap]. eapply own_perm; [|exact O3]. symmetry. rewrite (R h3 (Some e) h3 (Some (mkD [] [] []))). reflexivity.
  - (* DestroyDriver *)
    destruct (the i (w_drivers w)) as [d|] eqn:H; [|apply same; [cbn [step]; rewrite H; reflexivity|exact I]].
    destruct (driver_at _ _ _ _ I H) as (r & O & R). unfold owned in O.
    assert (O0 : own (w_heap w) (pointers (o_formulas d) ++ List.concat (o_queue d) ++ pointers (o_tests d) ++ r) L).
    { eapply own_perm; [|exact O]. rewrite <- !app_assoc. apply Permutation_app_head. rewrite !app_assoc. apply Permutation_app_tail. apply Permutation_app_comm. }
    destruct (own_delete _ _ _ _ O0) as (h1 & E1 & O1). destruct (own_delete _ _ _ _ O1) as (h2 & E2 & O2). destruct (own_delete _ _ _ _ O2) as (h3 & E3 & O3).
    eapply fine; [cbn [step]; rewrite H, E1; cbn [bind]; rewrite E2; cbn [bind]; rewrite E3; reflexivity|].
    unfold Inv. cbn [with_driver w_heap]. eapply own_perm; [|exact O3]. symmetry. rewrite R. reflexivity.
  - (* Define *)
    destruct (the i (w_drivers w)) as [d|] eqn:H; [|apply same; [cbn [step]; rewrite H; reflexivity|exact I]].
    destruct (closed (o_formulas d) f) eqn:C; [|apply same; [cbn [step]; rewrite H, C; reflexivity|exact I]].
    destruct (driver_at _ _ _ _ I H) as (r & O & R).
    destruct (own_make _ _ C _ _ _ O) as (p & h1 & E1 & O1); [intros y Y; apply in_or_app; left; apply formulas_owned; exact Y|].
    destruct (assign_pointers x p (o_formulas d)) as (Z & PZ & FZ).
    assert (O2 : own h1 (Z ++ owned (mkD (assign x p (o_formulas d)) (o_tests d) (o_queue d)) ++ r) L).
    { eapply own_perm; [|exact O1]. unfold owned. cbn [o_formulas o_tests o_queue]. rewrite <- !app_assoc.
      change (p :: pointers (o_formulas d) ++ pointers (o_tests d) ++ List.concat (o_queue d) ++ r)
        with ((p :: pointers (o_formulas d)) ++ pointers (o_tests d) ++ List.concat (o_queue d) ++ r). rewrite PZ, <- app_assoc. reflexivity. }
    destruct (own_forgets _ _ _ _ O2) as (L' & O3 & LZ). eexists. exists L'. split; [cbn [step]; rewrite H, C, E1; cbn [bind]; reflexivity|]. split.
    + unfold Inv. cbn [with_driver w_heap]. eapply own_perm; [|exact O3]. symmetry. apply (R h1).
    + cbn [tidy]. intro T. apply LZ, FZ, T. exact H.
  - (* Reject *)
    destruct (the i (w_drivers w)) as [d|] eqn:H; [|apply same; [cbn [step]; rewrite H; reflexivity|exact I]].
    destruct (forallb (closed (o_formulas d)) fs) eqn:C; [|apply same; [cbn [step]; rewrite H, C; reflexivity|exact I]].
    destruct (own_makes _ _ C _ _ _ I) as (qs & h1 & E1 & O1); [intros y Y; eapply driver_owned; [exact H|apply formulas_owned; exact Y]|].
    destruct (own_delete _ _ _ _ O1) as (h2 & E2 & O2).
    eapply fine; [cbn [step]; rewrite H, C, E1; cbn [bind]; rewrite E2; reflexivity|]. exact O2.
  - (* UseFormula *)
    destruct (the i (w_drivers w)) as [d|] eqn:H; [|apply same; [cbn [step]; rewrite H; reflexivity|exact I]].
    destruct (find x (o_formulas d)) as [p|] eqn:F; [|apply same; [cbn [step]; rewrite H, F; reflexivity|exact I]].
    assert (V : visit p (w_heap w) = Ok (w_heap w)).
    { eapply own_visit; [exact I|]. eapply driver_owned; [exact H|]. apply formulas_owned. eapply find_in. exact F. }
    eapply fine; [cbn [step]; rewrite H, F, V; reflexivity|]. exact I.
  - (* UseAll *)
    destruct (the i (w_drivers w)) as [d|] eqn:H; [|apply same; [cbn [step]; rewrite H; reflexivity|exact I]].
    assert (V : each visit (pointers (o_formulas d)) (w_heap w) = Ok (w_heap w)).
    { eapply own_visits; [exact I|]. intros y Y. eapply driver_owned; [exact H|]. apply formulas_owned. exact Y. }
    eapply fine; [cbn [step]; rewrite H, V; reflexivity|]. exact I.
  - (* Clear *)
    destruct (the i (w_drivers w)) as [d|] eqn:H; [|apply same; [cbn [step]; rewrite H; reflexivity|exact I]].
    specialize (A d eq_refl). destruct (driver_at _ _ _ _ I H) as (r & O & R). unfold owned in O. rewrite A, app_nil_r, <- app_assoc in O.
    destruct (own_delete _ _ _ _ O) as (h1 & E1 & O1). destruct (own_delete _ _ _ _ O1) as (h2 & E2 & O2).
    eapply fine; [cbn [step]; rewrite H, E1; cbn [bind]; rewrite E2; cbn [bind]; rewrite A; reflexivity|].
    unfold Inv. cbn [with_driver w_heap]. eapply own_perm; [|exact O2]. symmetry. rewrite R. reflexivity.
  - (* AddTrace *)
    destruct (the i (w_drivers w)) as [d|] eqn:H; [|apply same; [cbn [step]; rewrite H; reflexivity|exact I]].
    destruct (driver_at _ _ _ _ I H) as (r & O & R). eapply fine; [cbn [step]; rewrite H; reflexivity|].
    unfold Inv. cbn [with_driver w_heap]. eapply own_perm; [|exact O]. symmetry. rewrite R. cbn [of_driver]. unfold owned. cbn [o_formulas o_tests o_queue].
    rewrite concat_app. cbn [List.concat]. rewrite !app_nil_r. reflexivity.
  - (* AddNew *)
    destruct (the i (w_drivers w)) as [d|] eqn:H; [|apply same; [cbn [step]; rewrite H; reflexivity|exact I]].
    destruct (closed (o_formulas d) f) eqn:C; [|apply same; [cbn [step]; rewrite H, C; reflexivity|exact I]].
    destruct (driver_at _ _ _ _ I H) as (r & O & R).
    destruct (own_make _ _ C _ _ _ O) as (p & h1 & E1 & O1); [intros y Y; apply in_or_app; left; apply formulas_owned; exact Y|].
    destruct (o_queue d) as [|q0 q] eqn:Q.
    + destruct (own_forgets [p] _ _ _ O1) as (L' & O2 & _). eexists. exists L'. split; [cbn [step]; rewrite H, C, E1; cbn [bind]; rewrite Q; reflexivity|]. split; [|cbn [tidy]; tauto].
      unfold Inv. cbn [with_driver w_heap]. eapply own_perm; [|exact O2]. symmetry. apply (R h1).
    + destruct (own_clone _ _ _ p O1) as (a & h2 & E2 & O2); [left; reflexivity|]. destruct (own_delete1 _ _ _ _ O2) as (h3 & E3 & O3).
      destruct (own_clone _ _ _ p O3) as (b & h4 & E4 & O4); [left; reflexivity|]. destruct (own_clone _ _ _ p O4) as (c & h5 & E5 & O5); [right; left; reflexivity|].
      destruct (assign_pointers x b (o_tests d)) as (Z & PZ & _).
      assert (O6 : own h5 ((p :: Z) ++ owned (mkD (o_formulas d) (assign x b (o_tests d)) (push_back c (o_queue d))) ++ r) L).
      { eapply own_perm; [|exact O5]. unfold owned. cbn [o_formulas o_tests o_queue]. rewrite push_concat by (rewrite Q; discriminate). rewrite <- !app_assoc. cbn [app].
        set (F := pointers (o_formulas d)). set (G := List.concat (o_queue d)).
        transitivity (p :: F ++ (b :: pointers (o_tests d)) ++ (c :: G) ++ r).
        - cbn [app]. rewrite <- (Permutation_middle F). rewrite (app_assoc F _ (c :: G ++ r)), <- (Permutation_middle (F ++ pointers (o_tests d))), <- (app_assoc F).
          etransitivity; [apply perm_swap|]. etransitivity; [apply perm_skip, perm_swap|]. apply perm_swap.
        - apply perm_skip. rewrite PZ. rewrite <- !app_assoc. cbn [app]. rewrite !(app_assoc F Z), (Permutation_app_comm F Z), <- !app_assoc. reflexivity. }
      destruct (own_forgets _ _ _ _ O6) as (L' & O7 & _). eexists. exists L'. split.
      * cbn [step]. rewrite H, C, E1. cbn [bind]. rewrite Q. rewrite E2. cbn [bind]. rewrite E3. cbn [bind]. rewrite E4. cbn [bind]. rewrite E5. cbn [bind]. rewrite <- Q. reflexivity.
      * split; [|cbn [tidy]; tauto]. unfold Inv. cbn [with_driver w_heap]. eapply own_perm; [|exact O7]. symmetry. apply (R h5).
  - (* AddKnown *)
    destruct (the i (w_drivers w)) as [d|] eqn:H; [|apply same; [cbn [step]; rewrite H; reflexivity|exact I]].
    destruct (o_queue d) as [|q0 q] eqn:Q; [apply same; [cbn [step]; rewrite H, Q; reflexivity|exact I]|].
    destruct (find x (o_tests d)) as [p|] eqn:F; [|apply same; [cbn [step]; rewrite H, Q, F; reflexivity|exact I]].
    destruct (driver_at _ _ _ _ I H) as (r & O & R).
    destruct (own_clone _ _ _ p O) as (c & h1 & E1 & O1); [apply in_or_app; left; unfold owned; apply in_or_app; right; apply in_or_app; left; eapply find_in; exact F|].
    eapply fine; [cbn [step]; rewrite H, Q, F, E1; cbn [bind]; rewrite <- Q; reflexivity|].
    unfold Inv. cbn [with_driver w_heap]. eapply own_perm; [|exact O1]. symmetry. rewrite (R h1). cbn [of_driver]. unfold owned. cbn [o_formulas o_tests o_queue].
    rewrite push_concat by (rewrite Q; discriminate). rewrite <- !app_assoc. cbn [app].
    rewrite (app_assoc (pointers (o_formulas d)) _ (c :: _)), (app_assoc (pointers (o_formulas d)) _ (List.concat _ ++ r)). symmetry. apply Permutation_middle.
  - (* RunTests *)
    destruct (the i (w_drivers w)) as [d|] eqn:H; [|apply same; [cbn [step]; rewrite H; reflexivity|exact I]].
    specialize (A d eq_refl). destruct (o_queue d) as [|q0 q] eqn:Q; [contradiction|]. destruct (driver_at _ _ _ _ I H) as (r & O & R).
    assert (O0 : own (w_heap w) (q0 ++ owned (mkD (o_formulas d) (o_tests d) q) ++ r) L).
    { eapply own_perm; [|exact O]. unfold owned. cbn [o_formulas o_tests o_queue]. rewrite Q. cbn [List.concat]. rewrite !app_assoc. do 2 apply Permutation_app_tail.
      rewrite <- (app_assoc q0). apply Permutation_app_comm. }
    destruct (own_run _ _ _ _ O0) as (h1 & E1 & O1). eapply fine; [cbn [step]; rewrite H, Q, E1; reflexivity|].
    unfold Inv. cbn [with_driver w_heap]. eapply own_perm; [|exact O1]. symmetry. apply (R h1).
  - (* PopTrace *)
    destruct (the i (w_drivers w)) as [d|] eqn:H; [|apply same; [cbn [step]; rewrite H; reflexivity|exact I]].
    destruct (o_queue d) as [|q0 q] eqn:Q; [apply same; [cbn [step]; rewrite H, Q; reflexivity|exact I]|]. destruct (driver_at _ _ _ _ I H) as (r & O & R).
    assert (O0 : own (w_heap w) (q0 ++ owned (mkD (o_formulas d) (o_tests d) q) ++ r) L).
    { eapply own_perm; [|exact O]. unfold owned. cbn [o_formulas o_tests o_queue]. rewrite Q. cbn [List.concat]. rewrite !app_assoc. do 2 apply Permutation_app_tail.
      rewrite <- (app_assoc q0). apply Permutation_app_comm. }
    destruct (own_delete _ _ _ _ O0) as (h1 & E1 & O1). eapply fine; [cbn [step]; rewrite H, Q, E1; reflexivity|].
    unfold Inv. cbn [with_driver w_heap]. eapply own_perm; [|exact O1]. symmetry. apply (R h1).
  - (* GetMonitor *)
    destruct (the i (w_drivers w)) as [d|] eqn:H; [|apply same; [cbn [step]; rewrite H; reflexivity|exact I]].
    destruct (own_maybe_clone (find x (o_formulas d)) _ _ _ I) as (m & h1 & E1 & O1).
    { intros y Y. destruct (find x (o_formulas d)) as [p|] eqn:F; [|destruct Y]. destruct Y as [<-|[]]. eapply driver_owned; [exact H|]. apply formulas_owned. eapply find_in. exact F. }
    eapply fine; [cbn [step]; rewrite H, E1; reflexivity|]. unfold Inv. eapply own_perm; [symmetry; apply add_monitor_roots|]. exact O1.
  - (* NewMonitor *) eapply fine; [reflexivity|]. unfold Inv. eapply own_perm; [symmetry; apply add_monitor_roots|]. exact I.
  - (* CopyMonitor *)
    destruct (the i (w_monitors w)) as [m|] eqn:H; [|apply same; [cbn [step]; rewrite H; reflexivity|exact I]].
    destruct (own_maybe_clone m _ _ _ I) as (m' & h1 & E1 & O1); [eapply monitor_owned; exact H|].
    eapply fine; [cbn [step]; rewrite H, E1; reflexivity|]. unfold Inv. eapply own_perm; [symmetry; apply add_monitor_roots|]. exact O1.
  - (* MoveMonitor *)
    destruct (the i (w_monitors w)) as [m|] eqn:H; [|apply same; [cbn [step]; rewrite H; reflexivity|exact I]].
    eapply fine; [cbn [step]; rewrite H; reflexivity|]. unfold Inv. eapply own_perm; [symmetry; apply add_monitor_roots|].
    destruct (monitor_at _ _ _ _ I H) as (r & O & R). cbn [add_monitor w_heap]. eapply own_perm; [|exact O]. apply Permutation_app_head. rewrite R. reflexivity.
  - (* AssignMonitor *)
    destruct (the i (w_monitors w)) as [d|] eqn:H; [|apply same; [cbn [step]; rewrite H; reflexivity|exact I]].
    destruct (the j (w_monitors w)) as [e|] eqn:H'; [|apply same; [cbn [step]; rewrite H, H'; reflexivity|exact I]].
    destruct (Nat.eqb_spec i j) as [->|NE]; [apply same; [cbn [step]; rewrite H, Nat.eqb_refl; reflexivity|exact I]|].
    destruct (monitors_at _ _ _ _ _ _ I NE H H') as (r & O & R).
    destruct (own_delete _ _ _ _ O) as (h1 & E1 & O1). destruct (own_maybe_clone e _ _ _ O1) as (p & h2 & E2 & O2); [intros y Y; apply in_or_app; left; exact Y|].
    eapply fine; [cbn [step]; rewrite H, H'; destruct (Nat.eqb_spec i j) as [|_]; [contradiction|]; rewrite E1; cbn [bind]; rewrite E2; reflexivity|].
    unfold Inv. cbn [with_monitor w_heap]. eapply own_perm; [|exact O2]. specialize (R h2 (Some p) (w_heap w) (Some e)).
    assert (SB : with_monitor w (w_heap w) j (Some e) = mkW (w_heap w) (w_drivers w) (w_monitors w)) by (unfold with_monitor; rewrite set_same by exact H'; reflexivity).
    rewrite SB in R. symmetry. exact R.
  - (* MoveAssignMonitor *)
    destruct (the i (w_monitors w)) as [d|] eqn:H; [|apply same; [cbn [step]; rewrite H; reflexivity|exact I]].
    destruct (the j (w_monitors w)) as [e|] eqn:H'; [|apply same; [cbn [step]; rewrite H, H'; reflexivity|exact I]].
    destruct (Nat.eqb_spec i j) as [->|NE]; [apply same; [cbn [step]; rewrite H, Nat.eqb_refl; reflexivity|exact I]|].
    destruct (monitors_at _ _ _ _ _ _ I NE H H') as (r & O & R). destruct (own_delete _ _ _ _ O) as (h1 & E1 & O1).
    eapply fine; [cbn [step]; rewrite H, H'; destruct (Nat.eqb_spec i j) as [|_]; [contradiction|]; rewrite E1; reflexivity|].
    unfold Inv. cbn [with_monitor w_heap]. eapply own_perm; [|exact O1]. symmetry. rewrite (R h1 (Some e) h1 (Some None)). reflexivity.
  - (* DestroyMonitor *)
    destruct (the i (w_monitors w)) as [m|] eqn:H; [|apply same; [cbn [step]; rewrite H; reflexivity|exact I]].
    destruct (monitor_at _ _ _ _ I H) as (r & O & R). destruct (own_delete _ _ _ _ O) as (h1 & E1 & O1).
    eapply fine; [cbn [step]; rewrite H, E1; reflexivity|]. unfold Inv. cbn [with_monitor w_heap]. eapply own_perm; [|exact O1]. symmetry. rewrite R. reflexivity.
  - (* UseMonitor *)
    destruct (the i (w_monitors w)) as [m|] eqn:H; [|apply same; [cbn [step]; rewrite H; reflexivity|exact I]].
    assert (V : each visit (maybe m) (w_heap w) = Ok (w_heap w)) by (eapply own_visits; [exact I|eapply monitor_owned; exact H]).
    eapply fine; [cbn [step]; rewrite H, V; reflexivity|]. exact I.
Qed.

(** ** Histories *)
Lemma run_good : forall os w L, Inv w L -> along allowed os w -> exists w' L', run os w = Ok w' /\ Inv w' (L' ++ L) /\ (along tidy os w -> L' = []).
Proof.
  induction os as [|o os IH]; intros w L I A; [exists w, []; auto|]. destruct A as [A AS]. destruct (step_good w o L I A) as (w1 & L1 & E1 & I1 & T1).
  destruct (IH w1 _ I1 (AS w1 E1)) as (w2 & L2 & E2 & I2 & T2). exists w2, (L2 ++ L1). cbn [run]. rewrite E1. cbn [bind]. rewrite <- app_assoc. split; [exact E2|]. split; [exact I2|].
  intros [T TS]. rewrite (T1 T), (T2 (TS w1 E1)). reflexivity.
Qed.
Lemma start_inv : Inv start [].
Proof. exact own_start. Qed.

Definition quiet (w : world) : Prop := forall i d, the i (w_drivers w) = Some d -> untested d.
Lemma quiet_set : forall w h i v, quiet w -> (forall d, v = Some d -> untested d) -> quiet (with_driver w h i v).
Proof.
  intros w h i v Q H j d D. cbn [with_driver w_drivers] in D. destruct (Nat.eq_dec j i) as [->|NE].
  - apply H. unfold the in D. revert D. generalize (w_drivers w) as l, i as k. induction l as [|x l IH]; intros [|k] D; cbn in D; try discriminate; [exact D|apply (IH k D)].
  - rewrite the_set in D by exact NE. eapply Q. exact D.
Qed.
Lemma quiet_add : forall w h d, quiet w -> untested d -> quiet (add_driver w h d).
Proof.
  intros w h d Q U j e D. cbn [add_driver w_drivers] in D. unfold the in D. destruct (Nat.lt_ge_cases j (List.length (w_drivers w))) as [H|H].
  - rewrite nth_error_app1 in D by exact H. exact (Q j e D).
  - rewrite nth_error_app2 in D by exact H. destruct (j - List.length (w_drivers w)) as [|[|n]]; cbn in D; try discriminate. injection D as <-. exact U.
Qed.
Lemma quiet_heap : forall w h m, quiet w -> quiet (mkW h (w_drivers w) m).
Proof. intros w h m Q. exact Q. Qed.
Lemma untested_new : untested (mkD [] [] []).
Proof. split; reflexivity. Qed.
Lemma untested_map : forall d m, untested d -> untested (mkD m (o_tests d) (o_queue d)).
Proof. intros d m U. exact U. Qed.
Lemma bind_ok : forall A B (x : res A) (f : A -> res B) b, bind x f = Ok b -> exists a, x = Ok a /\ f a = Ok b.
Proof. intros A B [a| | | |] f b H; cbn in H; try discriminate. exists a. auto. Qed.
Ltac unbind H := repeat (apply bind_ok in H; let a := fresh "a" in let E := fresh "E" in destruct H as (a & E & H); cbv beta in H; try (destruct a as [? ?])).

Lemma plain_quiet : forall w o w', plain o -> quiet w -> step w o = Ok w' -> quiet w'.
Proof.
  intros w o w' P Q E.
  destruct o as [ |i|i|i j|i j|i|i x f|i fs|i x|i|i|i|i x f|i x|i|i|i x| |i|i|i j|i j|i|i]; cbn [plain] in P; try contradiction; cbn [step] in E;
    try (destruct (the i (w_drivers w)) as [d|] eqn:H; [|injection E as <-; exact Q]);
    try (destruct (the j (w_drivers w)) as [e|] eqn:H'; [|injection E as <-; exact Q]);
    try (destruct (the i (w_monitors w)) as [m|] eqn:H; [|injection E as <-; exact Q]);
    try (destruct (the j (w_monitors w)) as [m'|] eqn:H'; [|injection E as <-; exact Q]);
    try (destruct (Nat.eqb i j); [injection E as <-; exact Q|]).
  - injection E as <-. apply quiet_add; [exact Q|exact untested_new].
  - unbind E. injection E as <-. apply quiet_add; [exact Q|]. apply untested_map. eapply Q. exact H.
  - injection E as <-. apply quiet_add; [|eapply Q; exact H]. apply quiet_set; [exact Q|]. intros d0 [= <-]. exact untested_new.
  - unbind E. injection E as <-. apply quiet_set; [exact Q|]. intros d0 [= <-]. apply untested_map. eapply Q. exact H'.
  - unbind E. injection E as <-. apply quiet_set; [|intros d0 [= <-]; eapply Q; exact H']. apply quiet_set; [exact Q|]. intros d0 [= <-]. exact untested_new.
  - unbind E. injection E as <-. apply quiet_set; [exact Q|]. discriminate.
  - destruct (closed (o_formulas d) f); [|injection E as <-; exact Q]. unbind E. injection E as <-. apply quiet_set; [exact Q|]. intros d0 [= <-]. apply untested_map. eapply Q. exact H.
  - destruct (forallb (closed (o_formulas d)) fs); [|injection E as <-; exact Q]. unbind E. injection E as <-. exact Q.
  - destruct (find x (o_formulas d)); [|injection E as <-; exact Q]. unbind E. injection E as <-. exact Q.
  - unbind E. injection E as <-. exact Q.
  - unbind E. injection E as <-. apply quiet_set; [exact Q|]. intros d0 [= <-]. exact untested_new.
  - injection E as <-. apply quiet_set; [exact Q|]. intros d0 [= <-]. destruct (Q _ _ H) as [U1 U2]. split; cbn [o_tests o_queue]; [exact U1|]. rewrite concat_app, U2. reflexivity.
  - destruct (Q _ _ H) as [U1 _]. rewrite U1 in E. cbn [find] in E. destruct (o_queue d); injection E as <-; exact Q.
  - destruct (o_queue d) as [|r q] eqn:QQ; [injection E as <-; exact Q|]. unbind E. injection E as <-. apply quiet_set; [exact Q|]. intros d0 [= <-].
    destruct (Q _ _ H) as [U1 U2]. rewrite QQ in U2. cbn [List.concat] in U2. apply app_eq_nil in U2. split; cbn [o_tests o_queue]; tauto.
  - unbind E. injection E as <-. exact Q.
  - injection E as <-. exact Q.
  - unbind E. injection E as <-. exact Q.
  - injection E as <-. exact Q.
  - unbind E. injection E as <-. exact Q.
  - unbind E. injection E as <-. exact Q.
  - unbind E. injection E as <-. exact Q.
  - unbind E. injection E as <-. exact Q.
Qed.
Lemma plain_allowed : forall w o, plain o -> quiet w -> allowed w o.
Proof.
  intros w o P Q. destruct o; cbn [plain allowed] in *; try exact I; try contradiction.
  - intros d D. eapply Q. exact D.
  - right. intros d D. eapply Q. exact D.
  - intros d D. apply (Q _ _ D).
Qed.
Lemma plain_along : forall os w, Forall plain os -> quiet w -> along allowed os w.
Proof.
  induction os as [|o os IH]; intros w P Q; [exact I|]. inversion P as [|? ? P1 P2]; subst. split; [apply plain_allowed; assumption|].
  intros w' E. apply IH; [exact P2|]. eapply plain_quiet; eassumption.
Qed.
Lemma start_quiet : quiet start.
Proof. intros i d D. destruct i; discriminate D. Qed.

(** Every driver and every monitor was destroyed. *)
Definition over (w : world) : Prop := (forall i, the i (w_drivers w) = None) /\ (forall i, the i (w_monitors w) = None).
Lemma flat_none : forall A (f : option A -> list ptr) l, f None = [] -> (forall i, the i l = None) -> flat_map f l = [].
Proof.
  intros A f l F. induction l as [|x l IH]; intro H; [reflexivity|]. cbn [flat_map]. assert (X := H 0). unfold the in X. cbn in X. subst x. rewrite F. apply IH. intro i. exact (H (S i)).
Qed.
Lemma over_roots : forall w, over w -> roots w = [].
Proof. intros w [D M]. unfold roots. rewrite (flat_none _ of_driver) by auto. rewrite (flat_none _ of_monitor) by auto. reflexivity. Qed.

Theorem never_dangling : forall os, Forall plain os -> exists w, run os start = Ok w.
Proof. intros os P. destruct (run_good os start [] start_inv (plain_along os start P start_quiet)) as (w & L & E & _). exists w. exact E. Qed.
Theorem never_dangling_tests : forall os, along allowed os start -> exists w, run os start = Ok w.
Proof. intros os P. destruct (run_good os start [] start_inv P) as (w & L & E & _). exists w. exact E. Qed.
Theorem nothing_lost : forall os w, along allowed os start -> along tidy os start -> run os start = Ok w -> over w -> h_cells (w_heap w) = [].
Proof.
  intros os w A T E O. destruct (run_good os start [] start_inv A) as (w' & L & E' & I & TL). rewrite E in E'. injection E' as <-. rewrite (TL T) in I.
  unfold Inv in I. rewrite (over_roots w O) in I. apply own_none. exact I.
Qed.
