(** Declarations of signals, and the list of their names. *)
From Coq Require Import List Bool String Ascii ZArith Lia Permutation.
From Verif Require Import Num Base Signal Robust Transducer TreeProof Driver Tables Parser Automaton ParserProof ParserSpec ParserTotal PrecProof LexProof.
Import ListNotations.
Local Open Scope string_scope.
Local Open Scope Z_scope.

Section Decl.
Context {T : Type} {N : Num T}.
Variable s_to_d : string -> option T.
Notation parsed := (parsed (T := T)).
Notation steps := (steps s_to_d).

Definition with_signals (d : parsed) (m : list (string * Z)) : parsed := (set_signals_of (fst d) m, snd d).

Lemma known_exists : forall x (m : list (string * Z)), existsb (String.eqb x) (map fst m) = match find x m with Some _ => true | None => false end.
Proof.
  intros x m. induction m as [|[k v] m IH]; [reflexivity|]. cbn [map fst existsb find]. destruct (String.eqb x k); auto.
Qed.

Lemma one_step : forall c c' k r, pstep s_to_d c = Ok (Next c') -> steps c' k -> r = k -> steps c r.
Proof. intros; subst. econstructor; eauto. Qed.

(** One name. *)
Definition add_signal (m : list (string * Z)) (x : string) : list (string * Z) :=
  match find x m with Some _ => m | None => m ++ [(x, to_short (Z.of_nat (List.length m) + 1))] end.
Lemma name_added : forall (d : parsed) s v st g x r, In s [2; 29] -> gap g -> identifier x ->
  (match r with String c _ => wordly c = false | EmptyString => True end) -> declarable (fst d) (snd d) x ->
  steps (mkC ((s, v) :: st) None (g ++ x ++ r) d)
        (mkC ((after s 63, VNone) :: (s, v) :: st) None r (with_signals d (add_signal (d_signals (fst d)) x))).
Proof.
  intros d s v st g x r IN G ID R (NK & NF & NP & NT). apply symbol_keywords in NK.
  assert (L := lex_word d g x r G ID R). rewrite NK in L. unfold add_signal.
  destruct (find x (d_signals (fst d))) as [i|] eqn:FX.
  - assert (W : word_token d x = SIGNAL_ID) by (unfold word_token; now rewrite NK, NF, NP, FX). rewrite W in L.
    replace (with_signals d (d_signals (fst d))) with d by (destruct d as [[] ?]; reflexivity).
    apply steps_step with (c1 := mkC ((16, VStr x) :: (s, v) :: st) None r d).
    + unfold pstep. cbn [c_stack c_la c_in c_d]. rewrite L. cbn [In] in IN. destruct IN as [<-|[<-|[]]]; reflexivity.
    + eapply steps_step; [|apply steps_refl]. cbn [In] in IN. destruct IN as [<-|[<-|[]]]; reflexivity.
  - assert (W : word_token d x = NEW_ID).
    { unfold word_token. rewrite NK, NF, NP, FX. replace (in_names x (snd d)) with false; auto. symmetry. unfold in_names.
      apply not_true_iff_false. intro H. apply existsb_exists in H. destruct H as (y & I & E). apply String.eqb_eq in E. subst. now apply NT. }
    rewrite W in L.
    apply steps_step with (c1 := mkC ((15, VStr x) :: (s, v) :: st) None r d).
    + unfold pstep. cbn [c_stack c_la c_in c_d]. rewrite L. cbn [In] in IN. destruct IN as [<-|[<-|[]]]; reflexivity.
    + eapply steps_step; [|apply steps_refl].
      rewrite <- (assign_new _ x) by auto. cbn [In] in IN. destruct IN as [<-|[<-|[]]]; reflexivity.
Qed.
Lemma add_declare : forall m x, Z.of_nat (List.length m) < 32767 -> add_signal m x = declare m x.
Proof.
  intros m x L. unfold add_signal, declare. rewrite known_exists. destruct (find x m); auto. now rewrite to_short_small by lia.
Qed.
Lemma name_step : forall (d : parsed) s v st g x r, In s [2; 29] -> gap g -> identifier x ->
  (match r with String c _ => wordly c = false | EmptyString => True end) -> declarable (fst d) (snd d) x ->
  Z.of_nat (List.length (d_signals (fst d))) < 32767 ->
  steps (mkC ((s, v) :: st) None (g ++ x ++ r) d)
        (mkC ((after s 63, VNone) :: (s, v) :: st) None r (with_signals d (declare (d_signals (fst d)) x))).
Proof. intros. rewrite <- add_declare by auto. now apply name_added. Qed.

Lemma declare_length : forall m x, (List.length (declare m x) <= S (List.length m))%nat.
Proof. intros m x. unfold declare. destruct (existsb _ _); [lia|]. rewrite app_length. cbn. lia. Qed.
Lemma declarable_more : forall (d : parsed) x y, declarable (fst d) (snd d) x ->
  declarable (fst (with_signals d (declare (d_signals (fst d)) y))) (snd d) x.
Proof.
  intros d x y (NK & NF & NP & NT). repeat split; auto. cbn [with_signals fst set_signals_of d_signals]. intro H. apply NT.
  unfold declare in H. destruct (existsb _ _); auto. clear - H. revert H. generalize (Z.of_nat (List.length (d_signals (fst d))) + 1).
  induction (d_signals (fst d)) as [|[k v] m IH]; intros z H; auto. cbn [find app] in *. destruct (String.eqb x k); [discriminate|eauto].
Qed.

Lemma gap_no_word : forall g r, gap g -> (match r with String c _ => wordly c = false | EmptyString => True end) ->
  match (g ++ r)%string with String c _ => wordly c = false | EmptyString => True end.
Proof.
  intros g r G R. destruct G as [|c g B G|]; cbn [append]; auto.
  assert (X : implb (blank c) (negb (wordly c)) = true) by every c. rewrite B in X. now apply negb_true_iff in X.
Qed.

(** A list of names. *)
Lemma names_steps : forall l r, names_text l r -> forall (d : parsed) st,
  (forall x, In x l -> declarable (fst d) (snd d) x) ->
  Z.of_nat (List.length (d_signals (fst d)) + List.length l) <= 32767 ->
  forall s, (s = 2 /\ st = [(0, VNone)] \/ s = 29 /\ st = [(18, VNone); (2, VNone); (0, VNone)]) ->
  exists g, gap g /\ steps (mkC ((s, VNone) :: st) None r d)
     (mkC [(18, VNone); (2, VNone); (0, VNone)] None g (with_signals d (fold_left declare l (d_signals (fst d))))).
Proof.
  induction 1 as [g x g' G ID G'|g x g' l r G ID G' X IH]; intros d st D LE s CASE.
  - exists g'. split; auto. cbn [fold_left]. rewrite <- (append_nil g') at 1.
    eapply steps_trans.
    + apply name_step; auto; [destruct CASE as [[-> _]|[-> _]]; cbn; tauto|apply gap_no_word; auto|apply D; now left|cbn [List.length] in LE; lia].
    + rewrite append_nil. destruct CASE as [[-> ->]|[-> ->]]; (eapply steps_step; [reflexivity|apply steps_refl]).
  - cbn [fold_left].
    set (d' := with_signals d (declare (d_signals (fst d)) x)).
    edestruct (fun a b => IH d' [(18, VNone); (2, VNone); (0, VNone)] a b 29 (or_intror (conj eq_refl eq_refl))) as (g2 & G2 & S2).
    + intros y IN. exact (declarable_more d y x (D y (or_intror IN))).
    + assert (H := declare_length (d_signals (fst d)) x). subst d'. cbn [with_signals fst set_signals_of d_signals List.length] in *. lia.
    + exists g2. split; auto. eapply steps_trans.
      * apply name_step; auto; [destruct CASE as [[-> _]|[-> _]]; cbn; tauto|apply gap_no_word; auto; reflexivity|apply D; now left|cbn [List.length] in LE; lia].
      * fold d'. apply steps_trans with (b := mkC [(18, VNone); (2, VNone); (0, VNone)] None (g' ++ "," ++ r) d').
        { destruct CASE as [[-> ->]|[-> ->]]; (eapply steps_step; [reflexivity|apply steps_refl]). }
        eapply steps_step; [|exact S2]. unfold pstep. cbn [c_stack c_la c_in c_d].
        rewrite (lex_symbol s_to_d d' g' "," COMMA r G'); [reflexivity|unfold symbols; cbn [In]; repeat (first [left; reflexivity|right])|destruct r; [exact Logic.I|reflexivity]].
Qed.

Theorem declare_signals : forall (d : parsed) g l r, gap g -> names_text l r ->
  (match r with String c _ => wordly c = false | EmptyString => True end) ->
  (forall x, In x l -> declarable (fst d) (snd d) x) ->
  Z.of_nat (List.length (d_signals (fst d)) + List.length l) <= 32767 ->
  parse s_to_d d (g ++ "signal" ++ r) = Ok (true, with_signals d (fold_left declare l (d_signals (fst d)))).
Proof.
  intros d g l r G X R D LE. destruct (names_steps l r X d [(0, VNone)] D LE 2) as (g2 & G2 & S2); auto.
  set (d' := with_signals d _) in *.
  assert (ST : steps (mkC [(0, VNone)] None (g ++ "signal" ++ r) d) (mkC [(18, VNone); (2, VNone); (0, VNone)] None g2 d')).
  { eapply steps_step; [|exact S2]. unfold pstep. cbn [c_stack c_la c_in c_d]. rewrite (lex_word d g "signal" r G); auto.
    do 2 eexists. split; [reflexivity|]. split; vm_compute; reflexivity. }
  destruct (steps_loop s_to_d _ _ ST 4%nat (true, d')) as (k & E).
  - cbn [parse_loop]. unfold pstep at 1. cbn [c_stack c_la c_in c_d]. rewrite (lex_end d' g2 G2). reflexivity.
  - eapply parse_settled. exact E.
Qed.

(** One new name, whatever its number. *)
Theorem declare_one : forall (d : parsed) x, identifier x -> declarable (fst d) (snd d) x ->
  parse s_to_d d ("signal " ++ x) = Ok (true, with_signals d (add_signal (d_signals (fst d)) x)).
Proof.
  intros d x ID D. set (d' := with_signals d _).
  assert (ST : steps (mkC [(0, VNone)] None ("signal " ++ x) d) (mkC [(18, VNone); (2, VNone); (0, VNone)] None "" d')).
  { eapply steps_step with (c1 := mkC [(2, VNone); (0, VNone)] None (" " ++ x ++ "") d).
    - rewrite append_nil. unfold pstep. cbn [c_stack c_la c_in c_d]. change ("signal " ++ x) with ("" ++ "signal" ++ (" " ++ x)).
      rewrite (lex_word d "" "signal" (" " ++ x)); [reflexivity|constructor| |reflexivity].
      do 2 eexists. split; [reflexivity|]. split; vm_compute; reflexivity.
    - eapply steps_trans; [apply name_added; auto; [cbn; tauto|constructor; [reflexivity|constructor]]|].
      fold d'. eapply steps_step; [reflexivity|apply steps_refl]. }
  destruct (steps_loop s_to_d _ _ ST 4%nat (true, d')) as (k & E).
  - reflexivity.
  - eapply parse_settled. exact E.
Qed.
End Decl.

(** ** signal_map_to_string *)
Lemma put_spec : forall l k x, (k < List.length l)%nat -> exists l', put l k x = Ok l' /\ List.length l' = List.length l /\
  nth k l' "" = x /\ (forall j, j <> k -> nth j l' "" = nth j l "").
Proof.
  induction l as [|y l IH]; intros k x K; [cbn in K; lia|]. destruct k as [|k]; cbn [put].
  - exists (x :: l). repeat split; auto. intros [|j] J; [congruence|reflexivity].
  - destruct (IH k x) as (l' & E & L & A & B); [cbn in K; lia|]. rewrite E. cbn [bind]. exists (y :: l'). repeat split; auto.
    + cbn. now rewrite L.
    + intros [|j] J; [reflexivity|]. cbn. apply B. congruence.
Qed.
Lemma put_all_spec : forall m l, (forall x i, In (x, i) m -> 1 <= i <= Z.of_nat (List.length l)) -> NoDup (map snd m) ->
  exists l', put_all l m = Ok l' /\ List.length l' = List.length l /\
    (forall x i, In (x, i) m -> nth (Z.to_nat (i - 1)) l' "" = x) /\
    (forall j, ~ In (Z.of_nat j + 1) (map snd m) -> nth j l' "" = nth j l "").
Proof.
  induction m as [|[x i] m IH]; intros l R ND.
  - exists l. repeat split; auto. intros x i [].
  - cbn [put_all]. assert (RI : 1 <= i <= Z.of_nat (List.length l)) by (apply (R x i); now left).
    rewrite (proj2 (Z.ltb_ge i 1)) by lia. destruct (put_spec l (Z.to_nat (i - 1)) x) as (l1 & E1 & L1 & A1 & B1); [lia|].
    rewrite E1. cbn [bind]. cbn [map snd] in ND. apply NoDup_cons_iff in ND. destruct ND as [NI ND'].
    destruct (IH l1) as (l' & E & L & A & B); auto.
    { intros y j J. rewrite L1. apply (R y j). now right. }
    exists l'. repeat split; auto; [congruence| |].
    + intros y j [J|J]; [|auto]. assert (y = x /\ j = i) as [-> ->] by (inversion J; auto).
      rewrite B; auto. rewrite Z2Nat.id by lia. now replace (i - 1 + 1) with i by lia.
    + intros j J. cbn [map snd In] in J. rewrite B by tauto. apply B1. intro. subst. apply J. left. lia.
Qed.

Lemma spaced_concat : forall l x, x ++ spaced l = String.concat " " (x :: l).
Proof. induction l as [|y l IH]; intro x; cbn [spaced String.concat]; [apply append_nil|]. rewrite IH. reflexivity. Qed.

Theorem names_listed : forall m m', in_order m -> m <> [] -> Permutation m m' ->
  signal_map_to_string m' = Ok (String.concat " " (map fst m)).
Proof.
  intros m m' [O ND] NE P. unfold signal_map_to_string.
  assert (SN : map snd m = map Z.of_nat (seq 1 (List.length m))) by exact O.
  assert (IM : forall x i, In (x, i) m -> exists k, (k < List.length m)%nat /\ i = Z.of_nat k + 1 /\ nth k (map fst m) "" = x).
  { intros x i I. apply (In_nth _ _ ("", 0)) in I. destruct I as (k & K & E). exists k. split; auto.
    assert (E2 : nth k (map snd m) 0 = i). { change 0 with (snd ("", 0)) at 1. rewrite map_nth, E. reflexivity. }
    rewrite SN in E2. split.
    - rewrite (nth_indep _ 0 (Z.of_nat 0)), map_nth, seq_nth in E2; auto; [lia|]. now rewrite map_length, seq_length.
    - change ""%string with (fst (""%string, 0)). now rewrite map_nth, E. }
  assert (LEN : List.length m' = List.length m) by (symmetry; now apply Permutation_length).
  destruct (put_all_spec m' (repeat "" (List.length m'))) as (l' & E & L & A & _).
  - intros x i I. rewrite repeat_length, LEN. apply (Permutation_in _ (Permutation_sym P)) in I. destruct (IM x i I) as (k & K & -> & _). lia.
  - eapply Permutation_NoDup; [apply Permutation_map; exact P|]. rewrite SN. apply FinFun.Injective_map_NoDup; [|apply seq_NoDup].
    intros a b. lia.
  - rewrite E. cbn [bind].
    assert (EQ : l' = map fst m).
    { apply nth_ext with (d := "") (d' := ""); [rewrite L, repeat_length, map_length; auto|]. intros k K. rewrite L, repeat_length, LEN in K.
      assert (I : In (nth k m ("", 0)) m) by now apply nth_In. destruct (nth k m ("", 0)) as [x i] eqn:NK.
      assert (I' := Permutation_in _ P I). specialize (A x i I').
      assert (NI : nth k (map snd m) 0 = i). { change 0 with (snd ("", 0)) at 1. rewrite map_nth, NK. reflexivity. }
      rewrite SN, (nth_indep _ 0 (Z.of_nat 0)), map_nth, seq_nth in NI; auto; [|now rewrite map_length, seq_length].
      replace (Z.to_nat (i - 1)) with k in A by lia. rewrite A. change ""%string with (fst (""%string, 0)). now rewrite map_nth, NK. }
    subst l'. destruct m as [|[x i] m]; [congruence|]. cbn [map fst]. f_equal. apply spaced_concat.
Qed.

(** ** The position of a signal *)
Lemma position_number : forall m x i, in_order m -> nth_error (map fst m) i = Some x -> find x m = Some (Z.of_nat i + 1).
Proof.
  intros m x i [O ND] NX.
  assert (IN : In (x, Z.of_nat i + 1) m).
  { rewrite nth_error_map in NX. destruct (nth_error m i) as [[y z]|] eqn:E; [|discriminate]. cbn in NX. assert (y = x) by congruence. subst y.
    assert (S : nth_error (map snd m) i = Some z) by (rewrite nth_error_map, E; reflexivity). rewrite O, nth_error_map in S.
    destruct (nth_error (seq 1 (List.length m)) i) as [w|] eqn:W; [|discriminate]. cbn [option_map] in S.
    assert (LI : (i < List.length m)%nat) by (apply nth_error_Some; congruence).
    rewrite (nth_error_nth' _ 0%nat) in W by (rewrite seq_length; auto). rewrite seq_nth in W by auto.
    assert (z = Z.of_nat i + 1) by (assert (w = (1 + i)%nat) by congruence; assert (z = Z.of_nat w) by congruence; lia). subst z. eapply nth_error_In; eauto. }
  clear O NX. induction m as [|[k v] m IH]; [destruct IN|]. cbn [find map fst] in *. apply NoDup_cons_iff in ND. destruct ND as [NI ND].
  destruct (String.eqb_spec x k).
  - subst k. destruct IN as [E|IN]; [congruence|]. elim NI. change x with (fst (x, Z.of_nat i + 1)). now apply in_map.
  - destruct IN as [E|IN]; [congruence|auto].
Qed.

(** ** Any number of signals *)
Fixpoint unary (n : nat) : string := match n with O => "" | S k => String "a" (unary k) end.
Definition many (n : nat) : list (string * Z) := map (fun k => (unary k, Z.of_nat k)) (seq 1 n).
Lemma unary_length : forall n, String.length (unary n) = n.
Proof. induction n; cbn; auto. Qed.
Lemma many_in_order : forall n, in_order (many n).
Proof.
  intro n. unfold in_order, many. rewrite map_length, seq_length, !map_map. split; [reflexivity|]. cbn [fst].
  apply FinFun.Injective_map_NoDup; [|apply seq_NoDup]. intros a b E. rewrite <- (unary_length a), <- (unary_length b). now rewrite E.
Qed.
Lemma many_length : forall n, List.length (many n) = n.
Proof. intro n. unfold many. now rewrite map_length, seq_length. Qed.
