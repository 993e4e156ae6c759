(** Which tests a run of tests finds: histories of calls on the tests of a driver. *)
From Coq Require Import List Bool String Ascii ZArith Lia.
From Verif Require Import Num Base Signal Robust Transducer TreeProof Driver DriverProof Tests TestsProof.
Import ListNotations.
Local Open Scope string_scope.
Local Open Scope nat_scope.
Local Open Scope list_scope.

(** ** Calls, and what they should lead to *)
Inductive bcall (T : Type) :=
| BTrace (id env : string) (time : T) (visu : bool)
| BKnown (id : string) (local : list (string * T))
| BNew (id : string) (local : list (string * T)) (f : tree T) (pos neg : string) (err : bool)
| BRun (St : statics T) (data : list (list T)).
Arguments BTrace {T} id env time visu.
Arguments BKnown {T} id local.
Arguments BNew {T} id local f pos neg err.
Arguments BRun {T} St data.

Section Queue.
Context {T : Type} {N : Num T}.
Variable show : T -> string.
Local Notation bcall := (bcall T).

Definition is_trace (o : bcall) : bool := match o with BTrace _ _ _ _ => true | _ => false end.
Definition is_run (o : bcall) : bool := match o with BRun _ _ => true | _ => false end.
Definition is_add (o : bcall) : bool := match o with BKnown _ _ | BNew _ _ _ _ _ _ => true | _ => false end.
Definition count (p : bcall -> bool) (h : list bcall) : nat := List.length (filter p h).
Definition opened := count is_trace.
Definition runs := count is_run.

(** The test that [id] names after [h]: the one given last while a trace test was waiting to be run. *)
Definition latest (h : list bcall) (id : string) (t : stl_test T) : Prop :=
  exists h1 local f pos neg err h2, h = h1 ++ BNew id local f pos neg err :: h2 /\ runs h1 < opened h1 /\ t = mkTest id local (clone f) pos neg err /\
    forall a local' f' pos' neg' err' b, h2 = a ++ BNew id local' f' pos' neg' err' :: b -> opened (h1 ++ BNew id local f pos neg err :: a) <= runs (h1 ++ BNew id local f pos neg err :: a).
(** The tests that the calls [seg] after [h] add to a trace test. *)
Inductive added (h : list bcall) : list bcall -> list (stl_test T) -> Prop :=
| Ad_nil : added h [] []
| Ad_run : forall seg St data ts, added h seg ts -> added h (seg ++ [BRun St data]) ts
| Ad_new : forall seg ts id local f pos neg err, added h seg ts -> added h (seg ++ [BNew id local f pos neg err]) (ts ++ [mkTest id local (clone f) pos neg err])
| Ad_known : forall seg ts id local t, added h seg ts -> latest (h ++ seg) id t ->
    added h (seg ++ [BKnown id local]) (ts ++ [mkTest (t_id t) local (clone (t_formula t)) (t_pos t) (t_neg t) (t_err t)])
| Ad_unknown : forall seg ts id local, added h seg ts -> (forall t, ~ latest (h ++ seg) id t) -> added h (seg ++ [BKnown id local]) ts.

(** ** The calls on the model *)
Definition bstep (b : bench T) (o : bcall) : res (bench T) :=
  match o with
  | BTrace id env time visu => Ok (add_trace_test b id env time visu)
  | BKnown id local => Ok (add_known b id local)
  | BNew id local f pos neg err => Ok (add_new b id local f pos neg err)
  | BRun St data => '(_, b') <- run_tests show St data b ;; Ok b'
  end.
Fixpoint bcalls (b : bench T) (h : list bcall) : res (bench T) :=
  match h with [] => Ok b | o :: h' => b' <- bstep b o ;; bcalls b' h' end.

(** ** Proof *)
Lemma bcalls_app : forall h1 h2 b, bcalls b (h1 ++ h2) = (b' <- bcalls b h1 ;; bcalls b' h2).
Proof. induction h1 as [|o h1 IH]; intros h2 b; [reflexivity|]. cbn [app bcalls]. destruct (bstep b o); cbn [bind]; try reflexivity. apply IH. Qed.
Lemma count_app : forall p h1 h2, count p (h1 ++ h2) = count p h1 + count p h2.
Proof. intros p h1 h2. unfold count. rewrite filter_app, app_length. reflexivity. Qed.
Lemma count_one : forall p o, count p [o] = if p o then 1 else 0.
Proof. intros p o. unfold count. cbn. destruct (p o); reflexivity. Qed.
Lemma push_length : forall t q, List.length (push (T := T) t q) = List.length q.
Proof. intros t. induction q as [|r [|r' q] IH]; [reflexivity|reflexivity|]. cbn [push List.length] in *. rewrite IH. reflexivity. Qed.
Lemma push_front : forall t q k, S k < List.length q -> nth_error (push (T := T) t q) k = nth_error q k.
Proof.
  intros t. induction q as [|r [|r' q] IH]; intros k L; cbn [List.length] in L; try lia. cbn [push]. destruct k as [|k]; [reflexivity|]. cbn [nth_error]. apply IH. cbn [List.length]. lia.
Qed.
Lemma push_last : forall t q r k, S k = List.length q -> nth_error q k = Some r ->
  nth_error (push (T := T) t q) k = Some (mkTrace (tt_id r) (tt_env r) (tt_time r) (tt_visu r) (tt_tests r ++ [t])).
Proof.
  intros t. induction q as [|r0 [|r' q] IH]; intros r k L E; cbn [List.length] in L; [lia| |].
  - destruct k as [|k]; [|lia]. injection E as ->. reflexivity.
  - destruct k as [|k]; [lia|]. cbn [push nth_error]. apply IH; [cbn [List.length]; lia|exact E].
Qed.

Lemma run_queue : forall St data b e b', run_tests show St data b = Ok (e, b') -> exists r, b_queue b = r :: b_queue b' /\ b_tests b' = b_tests b /\ b_total b' = b_total b.
Proof.
  intros St data b e b' H. unfold run_tests in H. destruct (b_queue b) as [|r q]; [discriminate|]. destruct (run_loop _ _ _ _ _ _ _) as [[[[x y] z] u]| | | |]; try discriminate.
  cbn [bind] in H. injection H as <- <-. exists r. auto.
Qed.
(** A step, from the queue's point of view. *)
Lemma bstep_queue : forall b o b', bstep b o = Ok b' ->
  List.length (b_queue b') + (if is_run o then 1 else 0) = List.length (b_queue b) + (if is_trace o then 1 else 0) /\
  b_total b' = (b_total b + if is_add o then 1 else 0)%Z.
Proof.
  intros b o b' H. destruct o as [id env time visu|id local|id local f pos neg err|St data]; cbn [bstep is_run is_trace is_add] in *.
  - injection H as <-. unfold add_trace_test. cbn. rewrite app_length. cbn. split; lia.
  - injection H as <-. unfold add_known. cbn [b_queue b_total]. split; [|reflexivity]. destruct (b_queue b) as [|r q] eqn:Q; [reflexivity|]. destruct (find id (b_tests b)); [|reflexivity]. rewrite push_length. lia.
  - injection H as <-. unfold add_new. destruct (b_queue b) as [|r q] eqn:Q; cbn [b_queue b_total]; rewrite ?Q, ?push_length; split; reflexivity.
  - destruct (run_tests show St data b) as [[e b1]| | | |] eqn:R; try discriminate. cbn [bind] in H. injection H as <-. destruct (run_queue _ _ _ _ _ R) as (r & Q & _ & TT). rewrite Q, TT. cbn. split; lia.
Qed.
Lemma bcalls_queue : forall h b b', bcalls b h = Ok b' -> List.length (b_queue b') + runs h = List.length (b_queue b) + opened h /\ b_total b' = (b_total b + Z.of_nat (count is_add h))%Z.
Proof.
  induction h as [|o h IH]; intros b b' H; cbn [bcalls] in H; [injection H as <-; unfold runs, opened, count; cbn; split; lia|].
  destruct (bstep b o) as [b1| | | |] eqn:E; try discriminate. cbn [bind] in H. apply IH in H as [H1 H2]. apply bstep_queue in E as [E1 E2].
  change (o :: h) with ([o] ++ h). unfold runs, opened in *. rewrite !count_app, !count_one. rewrite H2, E2. split; [lia|]. destruct (is_add o); lia.
Qed.
(** The tests known by name. *)
Lemma snoc_split : forall (A : Type) (h : list A) o h1 x h2, h ++ [o] = h1 ++ x :: h2 -> (h2 = [] /\ h = h1 /\ o = x) \/ (exists h3, h2 = h3 ++ [o] /\ h = h1 ++ x :: h3).
Proof.
  intros A h o h1 x h2. destruct h2 as [|y h2 _] using rev_ind; intro E.
  - left. apply app_inj_tail in E as [-> ->]. auto.
  - right. exists h2. rewrite app_comm_cons, app_assoc in E. apply app_inj_tail in E as [-> ->]. auto.
Qed.
Lemma latest_other : forall h o id t, (forall local f pos neg err, o = BNew id local f pos neg err -> opened h <= runs h) -> latest (h ++ [o]) id t <-> latest h id t.
Proof.
  intros h o id t O. split; intros (h1 & local & f & pos & neg & err & h2 & E & R & Tt & M).
  - apply snoc_split in E as [(_ & -> & ->)|(h3 & -> & ->)].
    + specialize (O _ _ _ _ _ eq_refl). lia.
    + exists h1, local, f, pos, neg, err, h3. repeat split; auto. intros a local' f' pos' neg' err' b ->. apply (M a local' f' pos' neg' err' (b ++ [o])). rewrite <- app_assoc. reflexivity.
  - exists h1, local, f, pos, neg, err, (h2 ++ [o]). split; [rewrite E, <- app_assoc; reflexivity|]. split; [exact R|]. split; [exact Tt|].
    intros a local' f' pos' neg' err' b E'. apply snoc_split in E' as [(_ & <- & ->)|(h3 & -> & ->)]; [|eapply M; reflexivity].
    rewrite <- E. eapply O. reflexivity.
Qed.
Lemma latest_new : forall h id local f pos neg err t, runs h < opened h -> latest (h ++ [BNew id local f pos neg err]) id t <-> t = mkTest id local (clone f) pos neg err.
Proof.
  intros h id local f pos neg err t R. split.
  - intros (h1 & local' & f' & pos' & neg' & err' & h2 & E & R1 & Tt & M). apply snoc_split in E as [(_ & _ & E)|(h3 & -> & ->)]; [congruence|].
    specialize (M h3 local f pos neg err [] eq_refl). lia.
  - intros ->. exists h, local, f, pos, neg, err, []. repeat split; auto. intros [|] ? ? ? ? ? ? E; discriminate.
Qed.
Lemma known_latest : forall h b id t, bcalls new_bench h = Ok b -> (find id (b_tests b) = Some t <-> latest h id t).
Proof.
  induction h as [|o h IH] using rev_ind; intros b id t H.
  - injection H as <-. cbn. split; [discriminate|]. intros ([|] & ? & ? & ? & ? & ? & ? & E & _); discriminate.
  - rewrite bcalls_app in H. destruct (bcalls new_bench h) as [b0| | | |] eqn:E0; try discriminate. cbn [bind bcalls] in H.
    destruct (bstep b0 o) as [b1| | | |] eqn:E1; try discriminate. injection H as <-. specialize (fun id t => IH b0 id t eq_refl).
    pose proof (bcalls_queue h _ _ E0) as [L _]. cbn [new_bench b_queue List.length] in L.
    destruct o as [i env time visu|i local|i local f pos neg err|St data]; cbn [bstep] in E1.
    + injection E1 as <-. rewrite latest_other by discriminate. apply IH.
    + injection E1 as <-. rewrite latest_other by discriminate. apply IH.
    + injection E1 as <-. unfold add_new. destruct (b_queue b0) as [|r q] eqn:Q.
      * cbn [b_tests]. rewrite latest_other; [apply IH|]. intros. cbn in L. lia.
      * cbn [b_tests]. destruct (string_dec i id) as [->|D].
        -- rewrite find_assign, latest_new by (cbn [List.length] in L; lia). split; [intro X; injection X; auto|intros ->; reflexivity].
        -- rewrite find_assign_other by exact D. rewrite latest_other; [apply IH|]. intros. congruence.
    + destruct (run_tests show St data b0) as [[e b2]| | | |] eqn:R; try discriminate. injection E1 as <-. destruct (run_queue _ _ _ _ _ R) as (r & _ & -> & _). rewrite latest_other by discriminate. apply IH.
Qed.
(** While the trace test opened by the last BTrace waits. *)
Lemma seg_ok : forall pre id env time visu b seg, bcalls new_bench (pre ++ BTrace id env time visu :: seg) = Ok b -> opened seg = 0 ->
  runs (pre ++ BTrace id env time visu :: seg) <= opened pre ->
  exists ts, added (pre ++ [BTrace id env time visu]) seg ts /\ nth_error (b_queue b) (opened pre - runs (pre ++ BTrace id env time visu :: seg)) = Some (mkTrace id env time visu ts).
Proof.
  intros pre id env time visu b seg. revert b. induction seg as [|o seg IH] using rev_ind; intros b H O R.
  - exists []. split; [constructor|]. rewrite bcalls_app in H. destruct (bcalls new_bench pre) as [b0| | | |] eqn:E0; try discriminate. cbn [bind bcalls bstep] in H. injection H as <-.
    pose proof (bcalls_queue _ _ _ E0) as [L _]. cbn [new_bench b_queue List.length] in L. unfold add_trace_test. cbn [b_queue].
    unfold runs, opened in *. rewrite count_app, count_one in *. cbn [is_run] in *. rewrite nth_error_app2 by lia. replace (_ - _) with 0 by lia. reflexivity.
  - replace (pre ++ BTrace id env time visu :: seg ++ [o])%list with ((pre ++ BTrace id env time visu :: seg) ++ [o])%list in * by (rewrite <- app_assoc; reflexivity).
    rewrite bcalls_app in H. destruct (bcalls new_bench (pre ++ BTrace id env time visu :: seg)) as [b0| | | |] eqn:E0; try discriminate. cbn [bind bcalls] in H.
    destruct (bstep b0 o) as [b1| | | |] eqn:E1; try discriminate. injection H as <-.
    pose proof (bcalls_queue _ _ _ E0) as [L _]. cbn [new_bench b_queue List.length] in L.
    assert (RA : forall h, runs (h ++ [o]) = runs h + if is_run o then 1 else 0) by (intro h; unfold runs; rewrite count_app, count_one; reflexivity). rewrite RA in *.
    assert (OA : opened (seg ++ [o]) = opened seg + if is_trace o then 1 else 0) by (unfold opened; rewrite count_app, count_one; reflexivity). rewrite OA in O.
    assert (OP : opened (pre ++ BTrace id env time visu :: seg) = S (opened pre + opened seg)).
    { change (BTrace id env time visu :: seg) with ([BTrace id env time visu] ++ seg)%list. unfold opened. rewrite !count_app, count_one. cbn [is_trace]. lia. }
    destruct (IH b0 eq_refl) as (ts & A & Q); [lia|lia|]. set (h := (pre ++ BTrace id env time visu :: seg)%list) in *.
    assert (HS : ((pre ++ [BTrace id env time visu]) ++ seg = h)%list) by (unfold h; rewrite <- app_assoc; reflexivity).
    destruct o as [i env' time' visu'|i local|i local f pos neg err|St data]; cbn [bstep is_run is_trace] in *.
    + lia.
    + injection E1 as <-. rewrite Nat.add_0_r in *. pose proof (fun t => known_latest h b0 i t E0) as K. unfold add_known. cbn [b_queue]. destruct (b_queue b0) as [|r q] eqn:BQ; [cbn [List.length] in L; lia|]. rewrite <- BQ in *.
      destruct (find i (b_tests b0)) as [t|].
      * eexists. split; [apply Ad_known; [exact A|rewrite HS; apply K; reflexivity]|]. erewrite push_last; [|lia|exact Q]. reflexivity.
      * exists ts. split; [|exact Q]. apply Ad_unknown; [exact A|]. rewrite HS. intros t Lt. apply K in Lt. discriminate.
    + injection E1 as <-. rewrite Nat.add_0_r in *. unfold add_new. destruct (b_queue b0) as [|r q] eqn:BQ; [cbn [List.length] in L; lia|]. rewrite <- BQ in *. cbn [b_queue].
      eexists. split; [apply Ad_new; exact A|]. erewrite push_last; [|lia|exact Q]. reflexivity.
    + exists ts. split; [apply Ad_run; exact A|]. destruct (run_tests show St data b0) as [[e b2]| | | |] eqn:Rn; try discriminate. injection E1 as <-. destruct (run_queue _ _ _ _ _ Rn) as (r & BQ & _). rewrite BQ in Q.
      replace (opened pre - runs h) with (S (opened pre - (runs h + 1))) in Q by lia. exact Q.
Qed.
(** Later calls leave it alone. *)
Lemma later_ok : forall h o b b' k r, bstep b o = Ok b' -> bcalls new_bench h = Ok b -> nth_error (b_queue b) k = Some r -> S k < List.length (b_queue b) \/ is_trace o = true -> (is_run o = true -> 0 < k) ->
  nth_error (b_queue b') (k - if is_run o then 1 else 0) = Some r.
Proof.
  intros h o b b' k r E _ Q L R. destruct o as [i env' time' visu'|i local|i local f pos neg err|St data]; cbn [bstep is_run is_trace] in *.
  - injection E as <-. unfold add_trace_test. cbn [b_queue]. rewrite Nat.sub_0_r, nth_error_app1; [exact Q|]. apply nth_error_Some. congruence.
  - destruct L as [L|L]; [|discriminate]. injection E as <-. unfold add_known. cbn [b_queue]. rewrite Nat.sub_0_r. destruct (b_queue b) as [|r0 q] eqn:BQ; [exact Q|]. rewrite <- BQ in *. destruct (find i (b_tests b)); [|exact Q].
    rewrite push_front by exact L. exact Q.
  - destruct L as [L|L]; [|discriminate]. injection E as <-. unfold add_new. rewrite Nat.sub_0_r. destruct (b_queue b) as [|r0 q] eqn:BQ; [exact Q|]. rewrite <- BQ in *. cbn [b_queue].
    rewrite push_front by exact L. exact Q.
  - destruct (run_tests show St data b) as [[e b2]| | | |] eqn:Rn; try discriminate. injection E as <-. destruct (run_queue _ _ _ _ _ Rn) as (r0 & BQ & _). rewrite BQ in Q. specialize (R eq_refl). destruct k as [|k]; [lia|]. replace (S k - 1) with k by lia. exact Q.
Qed.
Theorem queue_ok : forall pre id env time visu seg post b, bcalls new_bench (pre ++ BTrace id env time visu :: seg ++ post) = Ok b ->
  opened seg = 0 -> match post with [] => True | o :: _ => is_trace o = true end ->
  runs (pre ++ BTrace id env time visu :: seg ++ post) <= opened pre ->
  exists ts, added (pre ++ [BTrace id env time visu]) seg ts /\
    nth_error (b_queue b) (opened pre - runs (pre ++ BTrace id env time visu :: seg ++ post)) = Some (mkTrace id env time visu ts).
Proof.
  intros pre id env time visu seg post. induction post as [|o post IH] using rev_ind; intros b H O P R.
  - rewrite app_nil_r in *. apply (seg_ok pre id env time visu b seg H O R).
  - replace (pre ++ BTrace id env time visu :: seg ++ post ++ [o])%list with ((pre ++ BTrace id env time visu :: seg ++ post) ++ [o])%list in * by (rewrite <- app_assoc; cbn [app]; rewrite <- app_assoc; reflexivity).
    rewrite bcalls_app in H. destruct (bcalls new_bench (pre ++ BTrace id env time visu :: seg ++ post)) as [b0| | | |] eqn:E0; try discriminate. cbn [bind bcalls] in H.
    destruct (bstep b0 o) as [b1| | | |] eqn:E1; try discriminate. injection H as <-.
    pose proof (bcalls_queue _ _ _ E0) as [L _]. cbn [new_bench b_queue List.length] in L.
    assert (RA : forall h, runs (h ++ [o]) = runs h + if is_run o then 1 else 0) by (intro h; unfold runs; rewrite count_app, count_one; reflexivity). rewrite RA in *.
    assert (OP : opened (pre ++ BTrace id env time visu :: seg ++ post) = S (opened pre + opened seg + opened post)).
    { change (BTrace id env time visu :: seg ++ post) with ([BTrace id env time visu] ++ seg ++ post)%list. unfold opened. rewrite !count_app, count_one. cbn [is_trace]. lia. }
    destruct (IH b0 eq_refl O) as (ts & A & Q); [destruct post; [exact Logic.I|exact P]|lia|]. exists ts. split; [exact A|]. rewrite Nat.sub_add_distr.
    apply (later_ok _ o b0 b1 _ _ E1 E0 Q).
    + destruct post as [|o' post]; [right; exact P|]. left. cbn [app] in P. assert (1 <= opened (o' :: post)) by (change (o' :: post) with ([o'] ++ post)%list; unfold opened; rewrite count_app, count_one, P; lia). lia.
    + intro X. rewrite X in R. lia.
Qed.
Theorem total_ok : forall h b, bcalls new_bench h = Ok b -> List.length (b_queue b) + runs h = opened h /\ b_total b = Z.of_nat (count is_add h).
Proof. intros h b H. apply bcalls_queue in H as [H1 H2]. cbn in *. split; lia. Qed.
End Queue.

(** ** The next run *)
Section Next.
Context {T : Type} {N : Num T}.
Variable show : T -> string.
Theorem next_run : forall pre id env time visu seg post b (St : statics T) data, bcalls show new_bench (pre ++ BTrace id env time visu :: seg ++ post) = Ok b ->
  opened seg = 0 -> match post with [] => True | o :: _ => is_trace o = true end ->
  runs (pre ++ BTrace id env time visu :: seg ++ post) = opened pre ->
  exists ts, added (pre ++ [BTrace id env time visu]) seg ts /\
    forall robs, Forall2 (fun t x => exists t', run_formula St data (t_formula t) = Ok (x, t')) ts robs ->
      exists b', run_tests show St data b = Ok (existsb fails (combine ts robs), b') /\
        b_log b' = (b_log b ++ lines (log_line show) (combine ts robs))%string /\
        b_report b' = (b_report b ++ "stl_test " ++ id ++ newline ++ lines (report_lines show) (combine ts robs) ++ newline)%string /\
        b_pos b' = (b_pos b + counts (combine ts robs))%Z.
Proof.
  intros pre id env time visu seg post b St data H O P R.
  destruct (queue_ok show pre id env time visu seg post b H O P) as (ts & A & Q); [lia|]. exists ts. split; [exact A|]. intros robs F.
  rewrite R, Nat.sub_diag in Q. destruct (b_queue b) as [|r q] eqn:BQ; [discriminate|]. injection Q as ->.
  pose proof (run_tests_reports show St data b _ q robs BQ F) as E. cbv zeta in E. cbn [tt_tests tt_id] in E. eexists. split; [exact E|]. auto.
Qed.
End Next.
