(** The call that stands for the declaration of a signal in a sequence of calls does what
    parsing the declaration does. *)
From Coq Require Import List Bool String ZArith Lia.
From Verif Require Import Num Base Signal Robust Transducer TreeProof Driver Tables Parser ParserProof ParserSpec ParserTotal PrecProof LexProof DeclProof.
Import ListNotations.
Local Open Scope string_scope.
Local Open Scope Z_scope.

Section Call.
Context {T : Type} {N : Num T}.
Lemma signal_call : forall (S : statics T) d x, Z.of_nat (List.length (d_signals d)) < 32767 ->
  dstep S d (DSignal x) = Ok (S, set_signals_of d (declare (d_signals d) x), ODone).
Proof.
  intros S d x L. rewrite <- add_declare by auto. cbn [dstep]. unfold new_signal, add_signal, set_signals_of.
  destruct (find x (d_signals d)) eqn:F; [reflexivity|]. rewrite assign_new by auto. reflexivity.
Qed.
Lemma signal_calls : forall l (S : statics T) d ds ms, Z.of_nat (List.length (d_signals d) + List.length l) <= 32767 ->
  run (mkW S (d :: ds) ms) (map (fun x => CDrv 0 (DSignal x)) l) =
    Ok (mkW S (set_signals_of d (fold_left declare l (d_signals d)) :: ds) ms, repeat ODone (List.length l)).
Proof.
  induction l as [|x l IH]; intros S d ds ms L; cbn [map run fold_left List.length repeat].
  - destruct d. reflexivity.
  - cbn [step w_drivers w_stat w_monitors nth_error need bind]. cbn [List.length] in L. rewrite signal_call by lia. cbn [bind update].
    rewrite IH; [reflexivity|]. cbn [set_signals_of d_signals]. pose proof (declare_length (d_signals d) x). lia.
Qed.
Lemma declared_calls : forall (value : string -> option T) (S : statics T) (d : driver T) tests ds ms g l r, gap g -> names_text l r ->
  (match r with String c _ => wordly c = false | EmptyString => True end) ->
  (forall x, In x l -> declarable d tests x) ->
  Z.of_nat (List.length (d_signals d) + List.length l) <= 32767 ->
  exists d', parse value (d, tests) (g ++ "signal" ++ r) = Ok (true, (d', tests)) /\
    run (mkW S (d :: ds) ms) (map (fun x => CDrv 0 (DSignal x)) l) = Ok (mkW S (d' :: ds) ms, repeat ODone (List.length l)).
Proof.
  intros value S d tests ds ms g l r G NT R DC L. eexists. split; [apply (declare_signals value (d, tests) g l r G NT R DC L)|].
  cbn [fst]. apply signal_calls. exact L.
Qed.
End Call.
