(** Parsing terminates: a measure that every step decreases. *)
From Coq Require Import List Bool String Ascii ZArith Lia.
From Verif Require Import Num Base Signal Robust Transducer Driver Tables Parser Automaton ParserProof ParserSpec.
Import ListNotations.
Local Open Scope Z_scope.

(** ** Scanning consumes the text *)
Lemma span_length : forall p s a b, span p s = (a, b) -> (String.length a + String.length b = String.length s)%nat.
Proof.
  induction s as [|c s IH]; cbn [span]; intros a b H.
  - injection H as <- <-. reflexivity.
  - destruct (p c); [|injection H as <- <-; reflexivity].
    destruct (span p s) as [x y]. injection H as <- <-. cbn [String.length]. specialize (IH x y eq_refl). lia.
Qed.
Lemma skip_length : forall s m, (match m with Some o => String.length s <= String.length o | None => True end)%nat ->
  (String.length (skip m s) <= match m with Some o => String.length o | None => String.length s end)%nat.
Proof.
  induction s as [|c s IH]; intros m H; cbn [skip String.length].
  - destruct m; cbn; lia.
  - destruct m as [o|].
    + cbn [String.length] in H. destruct (code c =? 10).
      * specialize (IH None Logic.I). cbn in IH. lia.
      * apply (IH (Some o)). lia.
    + destruct (is_blank c); [specialize (IH None Logic.I); cbn in IH; lia|].
      destruct (code c =? 35); [|cbn; lia].
      apply (IH (Some (String c s))). cbn. lia.
Qed.
Lemma quoted_length : forall n s a b, (String.length s <= n)%nat -> quoted s = Some (a, b) -> (String.length b < String.length s)%nat.
Proof.
  induction n as [|n IH]; intros s a b L H; destruct s as [|c s]; cbn [quoted String.length] in *; try discriminate; [lia|].
  destruct (code c =? 34); [injection H as <- <-; lia|]. destruct (code c =? 92).
  - destruct s as [|c' s]; [discriminate|]. destruct (code c' =? 10); [discriminate|]. cbn [String.length] in *.
    destruct (quoted s) as [[x y]|] eqn:E; [|discriminate]. injection H as <- <-. apply IH in E; lia.
  - destruct (quoted s) as [[x y]|] eqn:E; [|discriminate]. injection H as <- <-. apply IH in E; lia.
Qed.
Lemma strip_length : forall p s r, strip p s = Some r -> (String.length p + String.length r = String.length s)%nat.
Proof.
  induction p as [|a p IH]; cbn [strip]; intros s r H; [injection H as <-; reflexivity|].
  destruct s as [|b s]; [discriminate|]. destruct (Ascii.eqb a b); [|discriminate]. apply IH in H. cbn [String.length]. lia.
Qed.
Lemma symbol_length : forall l s k r, forallb (fun p => negb (String.eqb (fst p) "")) l = true -> symbol l s = Some (k, r) ->
  (String.length r < String.length s)%nat.
Proof.
  induction l as [|[p k'] l IH]; cbn [symbol forallb fst]; intros s k r P H; [discriminate|].
  apply andb_prop in P. destruct P as [P1 P2]. destruct (strip p s) eqn:E; [|eauto].
  injection H as <- <-. apply strip_length in E. destruct p; [discriminate|]. cbn [String.length] in E. lia.
Qed.
Lemma unsigned_length : forall s a r, unsigned s = Some (a, r) -> (String.length r < String.length s)%nat.
Proof.
  intros s a r H. unfold unsigned in H. destruct (span is_digit s) as [x y] eqn:E. apply span_length in E.
  assert (D : (if String.eqb x "" then None else Some (x, y)) = Some (a, r) -> (String.length r < String.length s)%nat).
  { destruct (String.eqb_spec x ""); [discriminate|]. intro H1. injection H1 as <- <-. destruct x; [contradiction|]. cbn in E. lia. }
  destruct y as [|c y]; [auto|]. destruct (code c =? 46); [|auto]. clear D.
  destruct (span is_digit y) as [f r'] eqn:E2. apply span_length in E2. injection H as <- <-. cbn [String.length] in E. lia.
Qed.
Lemma number_length : forall s a r, number s = Some (a, r) -> (String.length r < String.length s)%nat.
Proof.
  intros [|c s] a r H; [discriminate|]. cbn [number] in H. destruct ((code c =? 43) || (code c =? 45)).
  - destruct (unsigned s) as [[x y]|] eqn:E; [|discriminate]. injection H as <- <-. apply unsigned_length in E. cbn. lia.
  - apply unsigned_length in H. auto.
Qed.

Section Total.
Context {T : Type} {N : Num T}.
Variable s_to_d : string -> option T.
Notation sval := (sval (T := T)).
Notation conf := (conf (T := T)).
Notation parsed := (parsed (T := T)).

Lemma yylex_length : forall (d : parsed) s k v r, yylex d s = (k, v, r) ->
  (String.length r < String.length s)%nat \/ (yytranslate k = 0 /\ (String.length r <= String.length s)%nat).
Proof.
  intros d s k v r H. unfold yylex in H. assert (L := skip_length s None Logic.I). cbn beta iota in L.
  destruct (skip None s) as [|c s']; [injection H as <- <- <-; right; split; [reflexivity|cbn; lia]|].
  cbn [String.length] in L. left. destruct (is_alpha c) eqn:A.
  - cbn [span] in H. assert (W : is_word c = true) by (unfold is_word; rewrite A; reflexivity). rewrite W in H.
    destruct (span is_word s') as [a b] eqn:E. apply span_length in E.
    remember (find (String c a) reserved) as fr. injection H as <- <- <-. lia.
  - destruct (number (String c s')) as [[n r']|] eqn:E1.
    { injection H as <- <- <-. apply number_length in E1. cbn in E1. lia. }
    destruct (symbol symbols (String c s')) as [[k' r']|] eqn:E2.
    { injection H as <- <- <-. apply symbol_length in E2; [cbn in E2; lia|vm_compute; reflexivity]. }
    destruct (if code c =? 34 then quoted s' else None) as [[q r']|] eqn:E3.
    { injection H as <- <- <-. destruct (code c =? 34); [|discriminate]. apply (quoted_length _ _ _ _ (le_n _)) in E3. lia. }
    injection H as <- <- <-. lia.
Qed.

(** ** The measure *)
Definition weight (sym : Z) : nat :=
  if sym <? 41 then 20%nat
  else nth (Z.to_nat (sym - 42)) [10; 19; 19; 18; 17; 16; 15; 14; 13; 10; 10; 12; 10; 10; 10; 10; 9; 10; 10; 9; 1; 10; 9; 10; 10; 9; 10; 5]%nat 20%nat.
Definition before_nothing (s : Z) : bool := (s =? 49) || (s =? 50).
Definition stack_weight (st : list (Z * sval)) : nat := list_sum (map (fun e => weight (stos (fst e))) st).
Definition to_read (c : conf) : nat :=
  (2 * String.length (c_in c) + match c_la c with None => 1 | Some (tok, _) => if Z.eqb tok 0 then 0 else 2 end)%nat.
Definition measure (c : conf) : nat :=
  if top (c_stack c) =? yyfinal then 0%nat
  else (1 + 30 * to_read c + stack_weight (c_stack c) + (if before_nothing (top (c_stack c)) then 2 else 0))%nat.

Definition lighter (r : Z) : bool :=
  match rule r with
  | Some (lhs, rhs) => match rhs with [] => true | _ => Nat.ltb (weight lhs) (list_sum (map weight rhs)) end
  | None => true
  end.
Lemma all_lighter : forallb (fun p => (fst p =? 1) || lighter (fst p)) grammar = true.
Proof. vm_compute. reflexivity. Qed.
Lemma only_47 : forallb (fun p => (fst p =? 47) || match snd (snd p) with [] => false | _ => true end) grammar = true.
Proof. vm_compute. reflexivity. Qed.
Lemma rule_47 : forallb (fun s => forallb (fun a => match a with Reduce r => negb (r =? 47) || before_nothing s | _ => true end) (acts s)) states = true.
Proof. vm_compute. reflexivity. Qed.

Lemma Forall2_sum : forall (st : list (Z * sval)) syms, Forall2 (fun x e => stos (fst e) = x) syms st ->
  stack_weight st = list_sum (map weight syms).
Proof. induction 1; [reflexivity|]. unfold stack_weight, list_sum in *. cbn [map fold_right]. rewrite H, IHForall2. reflexivity. Qed.
Lemma spelled_symbols : forall syms lhs (st : list (Z * sval)), linked st -> spells edges syms lhs (top st) = true ->
  Forall2 (fun x e => stos (fst e) = x) syms (firstn (List.length syms) st).
Proof.
  induction syms as [|x syms IH]; intros lhs st L S; [constructor|].
  destruct st as [|[s v] st]; [destruct L|]. cbn [spells top] in S.
  apply andb_prop in S. destruct S as [S P]. apply andb_prop in S. destruct S as [A B].
  apply Z.eqb_eq in A. apply negb_true_iff, Z.eqb_neq in B.
  cbn [linked] in L. destruct st as [|[p w] st]; [contradiction|]. destruct L as [L1 L2].
  rewrite forallb_forall in P. specialize (P p (in_preds _ _ _ L1)).
  cbn [List.length]. change (firstn (S (List.length syms)) ((s, v) :: (p, w) :: st)) with ((s, v) :: firstn (List.length syms) ((p, w) :: st)).
  constructor; auto. eapply IH; eauto.
Qed.
Lemma sum_app : forall a b : list (Z * sval), stack_weight (a ++ b) = (stack_weight a + stack_weight b)%nat.
Proof. intros. unfold stack_weight. rewrite map_app, list_sum_app. reflexivity. Qed.
Lemma list_sum_rev : forall l, list_sum (rev l) = list_sum l.
Proof. induction l; cbn [rev]; [reflexivity|]. rewrite list_sum_app, IHl. unfold list_sum. cbn [fold_right]. lia. Qed.

Lemma tokens_end : forall s, stos s >= 41 -> s <> yyfinal /\ before_nothing s = false.
Proof.
  intros s H. split; [intros ->; cbv in H; congruence|]. unfold before_nothing.
  destruct (Z.eqb_spec s 49); [subst; cbv in H; congruence|]. destruct (Z.eqb_spec s 50); [subst; cbv in H; congruence|]. reflexivity.
Qed.

Variable Q : string -> Prop.
Lemma reduce_measure : forall c r c', linked (c_stack c) -> Forall (entry Q) (c_stack c) -> top (c_stack c) <> yyfinal ->
  In (Reduce r) (acts (top (c_stack c))) -> reduce s_to_d c r = Ok (Next c') -> (measure c' < measure c)%nat.
Proof.
  intros c r c' L E F A H. assert (S := linked_states _ L).
  destruct (acts_reduce _ _ S A) as (lhs & rhs & R & R1 & P & T1 & T2).
  assert (SP := spelled_symbols _ _ _ L P). rewrite rev_length in SP.
  destruct (spelled Q _ _ _ L E P) as (s & v & rest & s' & X & _ & _ & GO & _ & ST & _). rewrite rev_length in X.
  unfold reduce in H. rewrite T1, T2 in H. cbn [bind] in H. rewrite Nat2Z.id, X in H. rewrite GO in H. cbn [bind] in H.
  destruct (act s_to_d r _ (c_d c)) as [[[x d']|]| | | |]; try discriminate. cbn [bind] in H. injection H as <-.
  assert (LN : lhs >= 41).
  { apply rule_in in R. cbn [grammar In] in R.
    repeat match type of R with _ \/ _ => destruct R as [R|R]; [injection R as <- <- <-; lia|] | False => destruct R end. }
  unfold measure. cbn [c_stack top c_la c_in]. destruct (tokens_end s') as [NF NB]; [lia|].
  apply Z.eqb_neq in NF. rewrite NF, NB. apply Z.eqb_neq in F. rewrite F.
  assert (W : stack_weight (c_stack c) = (list_sum (map weight rhs) + stack_weight ((s, v) :: rest))%nat).
  { rewrite <- (firstn_skipn (List.length rhs) (c_stack c)), sum_app, X. f_equal.
    rewrite (Forall2_sum _ _ SP), map_rev, list_sum_rev. reflexivity. }
  assert (W2 : stack_weight ((s', x) :: (s, v) :: rest) = (weight lhs + stack_weight ((s, v) :: rest))%nat).
  { change ((s', x) :: (s, v) :: rest) with ([(s', x)] ++ (s, v) :: rest). rewrite sum_app. f_equal.
    unfold stack_weight, list_sum. cbn [map fst fold_right]. rewrite ST. lia. }
  change (to_read {| c_stack := (s', x) :: (s, v) :: rest; c_la := c_la c; c_in := c_in c; c_d := d' |}) with (to_read c).
  rewrite W, W2.
  destruct rhs as [|y rhs].
  - assert (r = 47) as ->.
    { assert (O := only_47). rewrite forallb_forall in O. apply rule_in in R. apply O in R. cbn in R.
      rewrite orb_false_r in R. apply Z.eqb_eq. auto. }
    assert (B := rule_47). rewrite forallb_forall in B. apply B in S. rewrite forallb_forall in S. apply S in A. cbn in A. rewrite A.
    injection R as <-. cbn [weight list_sum map fold_right]. change (weight 62) with 1%nat. unfold list_sum. cbn [fold_right]. lia.
  - assert (LI := all_lighter). rewrite forallb_forall in LI. apply rule_in in R as R'. apply LI in R'. cbn [fst] in R'.
    apply Z.eqb_neq in R1. rewrite R1 in R'. cbn [orb] in R'. unfold lighter in R'. rewrite R in R'. apply Nat.ltb_lt in R'. lia.
Qed.

Lemma pstep_measure : forall I c c', good Q I c -> pstep s_to_d c = Ok (Next c') -> (measure c' < measure c)%nat.
Proof.
  intros I c c' G H. destruct G as [L E D LA NW]. unfold pstep in H.
  assert (S := linked_states _ L). destruct (c_stack c) as [|[s v] st] eqn:C; [destruct L|]. cbn [top] in S.
  destruct (Z.eqb_spec s yyfinal) as [F|F]; [discriminate|].
  destruct (state_total s S) as [[B [a DA]]|[B DT]]; rewrite B in H; cbn [bind] in H.
  - rewrite DA in H. cbn [bind] in H. destruct a as [s'|r|]; try discriminate.
    apply (reduce_measure c r); auto; rewrite C; auto. apply default_acts; auto.
  - set (read := match c_la c with
            | Some (tok, v0) => (tok, v0, c_in c)
            | None => let '(k, v0, r) := yylex (c_d c) (c_in c) in (yytranslate k, v0, r) end) in *.
    destruct read as [[tok w] rest] eqn:RD. subst read.
    assert (RG : 0 <= tok < 41 /\ (2 * String.length rest + (if Z.eqb tok 0 then 0 else 2) <= to_read c)%nat /\ (tok <> 0 -> (2 * String.length rest + 1 < to_read c)%nat)).
    { unfold to_read. destruct (c_la c) as [[tok0 w0]|].
      - injection RD as <- <- <-. destruct (LA _ _ eq_refl) as (A1 & _). repeat split; try lia. intro N0. apply Z.eqb_neq in N0. rewrite N0. lia.
      - destruct (yylex (c_d c) (c_in c)) as [[k w0] r0] eqn:Y. injection RD as <- <- <-.
        assert (YL := yylex_length _ _ _ _ _ Y).
        assert (0 <= yytranslate k < 41).
        { destruct (yylex_typed (fun _ => True) (fun _ => True) (fun _ _ _ _ => Logic.I) _ _ _ _ _ Logic.I Y). auto. }
        split; auto. destruct YL as [YL|[YK YL]].
        + split; [|lia]. destruct (Z.eqb_spec (yytranslate k) 0); lia.
        + rewrite YK. cbn [Z.eqb]. split; [lia|congruence]. }
    destruct RG as (RG & RL & RN).
    destruct (DT tok RG) as [a DA]. rewrite DA in H. cbn [bind] in H. assert (AC := decide_acts s tok a F B RG DA).
    destruct a as [s'|r|]; try discriminate.
    + injection H as <-. destruct (shift_state s tok s' S F RG DA) as [ST EN].
      unfold measure. cbn [c_stack top]. rewrite C. cbn [top]. apply Z.eqb_neq in F. rewrite F.
      destruct (Z.eqb_spec s' yyfinal) as [F'|F']; [lia|].
      assert (N0 : tok <> 0) by (intro N0; apply EN in N0; contradiction). specialize (RN N0).
      unfold to_read at 1. cbn [c_in c_la].
      change ((s', w) :: (s, v) :: st) with ([(s', w)] ++ (s, v) :: st). rewrite sum_app.
      assert (stack_weight [(s', w)] = 20%nat) as ->.
      { unfold stack_weight. cbn [map fst list_sum fold_right]. rewrite ST. unfold weight. destruct (Z.ltb_spec tok 41); [reflexivity|lia]. }
      destruct (before_nothing s'), (before_nothing s); lia.
    + apply (reduce_measure (mkC ((s, v) :: st) (Some (tok, w)) rest (c_d c)) r) in H; auto.
      eapply Nat.lt_le_trans; [exact H|]. unfold measure. rewrite C. cbn [c_stack top]. apply Z.eqb_neq in F. rewrite F.
      unfold to_read at 1. cbn [c_in c_la]. lia.
Qed.

Lemma loop_ends : forall I : parsed -> Prop,
  (forall d w, I d -> word_token d w = NEW_ID -> Q w) ->
  (forall d s t, I d -> Q s -> I (d_with_formulas (fst d) (assign s t (d_formulas (fst d))), snd d)) ->
  (forall d k v, I d -> I (set_params_of (fst d) (assign k v (d_params (fst d))), snd d)) ->
  (forall d x, I d -> Q x -> find x (d_signals (fst d)) = None ->
     I (set_signals_of (fst d) (assign x (to_short (Z.of_nat (List.length (d_signals (fst d))) + 1)) (d_signals (fst d))), snd d)) ->
  (forall d l, I d -> I (fst d, l)) ->
  forall fuel c, good Q I c -> (measure c < fuel)%nat -> parse_loop s_to_d fuel c <> OutOfFuel.
Proof.
  intros I H1 H2 H3 H4 H5. induction fuel as [|k IH]; intros c G M; [lia|]. cbn [parse_loop].
  assert (SG := pstep_good s_to_d Q I H1 H2 H3 H4 H5 c G).
  destruct (pstep s_to_d c) as [[c'|b d']| | | |] eqn:P; cbn [bind step_good] in *; try discriminate; [|destruct SG].
  apply IH; auto. apply pstep_measure with (I := I) in P; auto. lia.
Qed.

(** ** Signals declared so far *)
Definition room (c : conf) : nat :=
  (List.length (d_signals (fst (c_d c))) + String.length (c_in c)
   + match c_la c with Some (tok, _) => if Z.eqb tok 33 then 1 else 0 | None => 0 end
   + if Z.eqb (top (c_stack c)) 15 then 1 else 0)%nat.

Lemma assign_length : forall (A : Type) k (v : A) m, (List.length (assign k v m) <= S (List.length m))%nat.
Proof. induction m as [|[k' w] m IH]; cbn [assign List.length]; [lia|]. destruct (String.eqb k k'); cbn [List.length]; lia. Qed.

Lemma act_room : forall r vs d x d', act s_to_d r vs d = Ok (Some (x, d')) ->
  (List.length (d_signals (fst d')) <= List.length (d_signals (fst d)) + (if Z.eqb r 49 then 1 else 0))%nat.
Proof.
  intros r vs d x d' H. assert (K : d_signals (fst d') = d_signals (fst d) \/ r = 49 /\ exists y, d_signals (fst d') = assign y (to_short (Z.of_nat (List.length (d_signals (fst d))) + 1)) (d_signals (fst d))).
  { unfold act in H.
    repeat match type of H with
      | match ?e with _ => _ end = _ => destruct e eqn:?; try discriminate H
      end; injection H as <- <-; cbn [fst snd d_signals d_with_formulas set_params_of set_signals_of]; auto.
    right. eauto. }
  destruct K as [->|[-> [y ->]]]; [lia|]. assert (L := assign_length _ y (to_short (Z.of_nat (List.length (d_signals (fst d))) + 1)) (d_signals (fst d))).
  cbn [Z.eqb Pos.eqb]. lia.
Qed.

Lemma reduce_room : forall c r o, linked (c_stack c) -> Forall (entry Q) (c_stack c) ->
  In (Reduce r) (acts (top (c_stack c))) -> reduce s_to_d c r = Ok o ->
  match o with Next c' => (room c' <= room c)%nat | Return _ d => (List.length (d_signals (fst d)) <= room c)%nat end.
Proof.
  intros c r o L E A H. assert (S := linked_states _ L).
  destruct (acts_reduce _ _ S A) as (lhs & rhs & R & R1 & P & T1 & T2).
  destruct (spelled Q _ _ _ L E P) as (s & v & rest & s' & X & _ & _ & GO & _ & ST & _). rewrite rev_length in X.
  unfold reduce in H. rewrite T1, T2 in H. cbn [bind] in H. rewrite Nat2Z.id, X in H. rewrite GO in H. cbn [bind] in H.
  destruct (act s_to_d r _ (c_d c)) as [[[x d']|]| | | |] eqn:AC; try discriminate; cbn [bind] in H; injection H as <-.
  - assert (LN : 41 <= lhs).
    { apply rule_in in R. cbn [grammar In] in R.
      repeat match type of R with _ \/ _ => destruct R as [R|R]; [injection R as <- <- <-; lia|] | False => destruct R end. }
    apply act_room in AC. unfold room. cbn [c_stack c_la c_in c_d top].
    assert (N15 : s' <> 15) by (apply not_15; lia). apply Z.eqb_neq in N15. rewrite N15.
    destruct (Z.eqb_spec r 49) as [->|]; [|lia].
    apply reduce_49 in A; auto. rewrite A. cbn [Z.eqb Pos.eqb]. lia.
  - unfold room. lia.
Qed.

Lemma pstep_room : forall I c o, good Q I c -> pstep s_to_d c = Ok o ->
  match o with Next c' => (room c' <= room c)%nat | Return _ d => (List.length (d_signals (fst d)) <= room c)%nat end.
Proof.
  intros I c o G H. destruct G as [L E D LA NW]. unfold pstep in H.
  assert (S := linked_states _ L). destruct (c_stack c) as [|[s v] st] eqn:C; [destruct L|]. cbn [top] in S.
  assert (RET : forall b, o = Return b (c_d c) ->
    match o with Next c' => (room c' <= room c)%nat | Return _ d => (List.length (d_signals (fst d)) <= room c)%nat end).
  { intros b ->. unfold room. lia. }
  destruct (Z.eqb_spec s yyfinal) as [F|F]; [injection H as <-; eapply RET; eauto|].
  destruct (state_total s S) as [[B [a DA]]|[B DT]]; rewrite B in H; cbn [bind] in H.
  - rewrite DA in H. cbn [bind] in H. destruct a as [s'|r|]; try (injection H as <-; eapply RET; eauto; fail).
    apply (reduce_room c r); auto; rewrite C; auto. apply default_acts; auto.
  - set (read := match c_la c with
            | Some (tok, v0) => (tok, v0, c_in c)
            | None => let '(k, v0, r) := yylex (c_d c) (c_in c) in (yytranslate k, v0, r) end) in *.
    destruct read as [[tok w] rest] eqn:RD. subst read.
    assert (RG : 0 <= tok < 41 /\ (room (mkC ((s, v) :: st) (Some (tok, w)) rest (c_d c)) <= room c)%nat).
    { unfold room. cbn [c_stack c_la c_in c_d]. rewrite C. destruct (c_la c) as [[tok0 w0]|].
      - injection RD as <- <- <-. destruct (LA _ _ eq_refl) as (A1 & _). split; lia.
      - destruct (yylex (c_d c) (c_in c)) as [[k w0] r0] eqn:Y. injection RD as <- <- <-.
        assert (YL := yylex_length _ _ _ _ _ Y).
        assert (0 <= yytranslate k < 41).
        { destruct (yylex_typed (fun _ => True) (fun _ => True) (fun _ _ _ _ => Logic.I) _ _ _ _ _ Logic.I Y). auto. }
        split; auto. destruct YL as [YL|[YK YL]].
        + destruct (Z.eqb_spec (yytranslate k) 33); lia.
        + rewrite YK. cbn [Z.eqb]. lia. }
    destruct RG as (RG & RL).
    destruct (DT tok RG) as [a DA]. rewrite DA in H. cbn [bind] in H. assert (AC := decide_acts s tok a F B RG DA).
    destruct a as [s'|r|]; [| |injection H as <-; eapply RET; eauto].
    + injection H as <-. destruct (shift_state s tok s' S F RG DA) as [ST EN].
      eapply Nat.le_trans; [|exact RL]. unfold room. cbn [c_stack top c_la c_in c_d].
      destruct (Z.eqb_spec s' 15) as [->|]; [|lia]. assert (tok = 33) as -> by (rewrite <- ST; reflexivity). cbn [Z.eqb Pos.eqb]. lia.
    + apply reduce_room in H; auto. destruct o; eapply Nat.le_trans; eauto.
Qed.
End Total.

Section Claims.
Context {T : Type} {N : Num T}.
Variable s_to_d : string -> option T.
Notation parsed := (parsed (T := T)).

(** ** What parsing keeps *)
Lemma find_assign_same : forall (A : Type) k (v : A) m, find k (assign k v m) = Some v.
Proof.
  induction m as [|[k' w] m IH]; cbn [assign find]; [rewrite String.eqb_refl; auto|].
  destruct (String.eqb k k') eqn:E; cbn [find]; rewrite E; auto.
Qed.
Lemma find_assign_other : forall (A : Type) k k' (v : A) m, k <> k' -> find k (assign k' v m) = find k m.
Proof.
  induction m as [|[k2 w] m IH]; cbn [assign find]; intro H.
  - destruct (String.eqb_spec k k'); [contradiction|auto].
  - destruct (String.eqb_spec k' k2); cbn [find].
    + subst. destruct (String.eqb_spec k k2); [contradiction|auto].
    + destruct (String.eqb k k2); auto.
Qed.
Lemma assign_new : forall (A : Type) k (v : A) m, find k m = None -> assign k v m = (m ++ [(k, v)])%list.
Proof.
  induction m as [|[k' w] m IH]; cbn [assign find app]; intro H; [auto|].
  destruct (String.eqb k k'); [discriminate|]. rewrite IH; auto.
Qed.

Lemma word_new_formula : forall (d : parsed) w, word_token d w = NEW_ID -> find w (d_formulas (fst d)) = None.
Proof.
  intros d w H. unfold word_token in H. destruct (find w reserved) as [k|] eqn:R.
  - subst. apply find_in in R. assert (P := reserved_plain). rewrite forallb_forall in P. apply P in R. discriminate.
  - destruct (find w (d_formulas (fst d))); [discriminate|auto].
Qed.

Theorem parse_extends : forall fuel d tests s b d' tests',
  parse_string s_to_d fuel (d, tests) s = Ok (b, (d', tests')) -> extends d d'.
Proof.
  intros fuel d tests s b d' tests' H.
  assert (K := parse_keeps s_to_d (fun w => find w (d_formulas d) = None) (fun x => extends d (fst x))).
  specialize (fun a1 a2 a3 a4 a5 => K a1 a2 a3 a4 a5 fuel (d, tests) s). rewrite H in K. apply K; clear K H; cbn [fst].
  - intros x w X W. apply word_new_formula in W. destruct (find w (d_formulas d)) eqn:F; auto.
    apply X in F. congruence.
  - intros x k t X Qk. unfold extends in *. cbn [d_with_formulas d_data d_sem d_ip d_signals d_params d_formulas].
    repeat (split; [tauto|]). intros phi u F. rewrite find_assign_other; [apply X; auto|]. congruence.
  - intros x k v X. unfold extends in *. cbn [set_params_of d_data d_sem d_ip d_signals d_params d_formulas].
    repeat (split; [tauto|]). split; [|tauto]. intros k' K'. destruct (String.eqb_spec k' k).
    + subst. rewrite find_assign_same. discriminate.
    + rewrite find_assign_other; auto. apply X; auto.
  - intros x y X _ F. unfold extends in *. cbn [set_signals_of d_data d_sem d_ip d_signals d_params d_formulas].
    repeat (split; [tauto|]). split; [|tauto]. destruct X as (_ & _ & _ & [l X] & _).
    rewrite assign_new by auto. rewrite X, <- app_assoc. eauto.
  - auto.
  - unfold extends. repeat split; auto. exists []. rewrite app_nil_r. auto.
Qed.

(** Numbers as stored: a short each. *)
Definition shorts (m : list (string * Z)) : Prop :=
  map snd m = map (fun k => to_short (Z.of_nat k)) (seq 1 (List.length m)) /\ NoDup (map fst m).

Lemma to_short_small : forall z, 0 <= z <= 32767 -> to_short z = z.
Proof. intros z H. unfold to_short. rewrite Z.mod_small; lia. Qed.

Lemma shorts_small : forall m, (Z.of_nat (List.length m) <= 32767) -> shorts m <-> in_order m.
Proof.
  intros m L. unfold shorts, in_order.
  assert (E : map (fun k => to_short (Z.of_nat k)) (seq 1 (List.length m)) = map Z.of_nat (seq 1 (List.length m))).
  { apply map_ext_in. intros k K. apply in_seq in K. apply to_short_small. lia. }
  rewrite E. tauto.
Qed.

Lemma find_none_notin : forall (A : Type) k (m : list (string * A)), find k m = None <-> ~ In k (map fst m).
Proof.
  induction m as [|[k' w] m IH]; cbn [find map fst In]; [tauto|].
  destruct (String.eqb_spec k k'); [|intuition congruence]. subst. intuition discriminate.
Qed.

Lemma NoDup_snoc : forall (A : Type) (l : list A) x, NoDup l -> ~ In x l -> NoDup (l ++ [x]).
Proof.
  induction l as [|y l IH]; cbn [app In]; intros x H F; [constructor; [auto|constructor]|].
  inversion H; subst. constructor; [|apply IH; auto]. rewrite in_app_iff. cbn [In]. intuition congruence.
Qed.

Lemma shorts_add : forall m x, shorts m -> find x m = None ->
  shorts (assign x (to_short (Z.of_nat (List.length m) + 1)) m).
Proof.
  intros m x [A B] F. rewrite assign_new by auto. split.
  - rewrite map_app, app_length. cbn [map snd List.length]. rewrite Nat.add_1_r, seq_S, map_app, A. cbn [map].
    do 3 f_equal. lia.
  - rewrite map_app. cbn [map fst]. apply find_none_notin in F.
    apply NoDup_snoc; auto.
Qed.

Lemma shorts_up : forall (d : parsed), shorts (d_signals (fst d)) -> (Z.of_nat (List.length (d_signals (fst d))) <= 32767) -> numbered_up d.
Proof.
  intros d H L x i F. apply shorts_small in H; auto. destruct H as [H _]. apply find_in in F. apply (in_map snd) in F. cbn in F.
  rewrite H in F. apply in_map_iff in F. destruct F as (k & <- & _). lia.
Qed.

Definition Ishort (x : parsed) : Prop := shorts (d_signals (fst x)).
Lemma short_hyps :
  (forall (d : parsed) w, Ishort d -> word_token d w = NEW_ID -> True) /\
  (forall (d : parsed) s t, Ishort d -> True -> Ishort (d_with_formulas (fst d) (assign s t (d_formulas (fst d))), snd d)) /\
  (forall (d : parsed) k v, Ishort d -> Ishort (set_params_of (fst d) (assign k v (d_params (fst d))), snd d)) /\
  (forall (d : parsed) x, Ishort d -> True -> find x (d_signals (fst d)) = None ->
     Ishort (set_signals_of (fst d) (assign x (to_short (Z.of_nat (List.length (d_signals (fst d))) + 1)) (d_signals (fst d))), snd d)) /\
  (forall (d : parsed) l, Ishort d -> Ishort (fst d, l)).
Proof.
  unfold Ishort. split; [auto|]. split; [auto|]. split; [auto|]. split; [|auto].
  intros d x D _ F. cbn [fst set_signals_of d_signals]. apply shorts_add; auto.
Qed.

Theorem parse_numbers : forall fuel d tests s b d' tests', shorts (d_signals d) ->
  parse_string s_to_d fuel (d, tests) s = Ok (b, (d', tests')) -> shorts (d_signals d').
Proof.
  intros fuel d tests s b d' tests' D H. destruct short_hyps as (H1 & H2 & H3 & H4 & H5).
  assert (K := parse_keeps s_to_d (fun _ => True) Ishort H1 H2 H3 H4 H5 fuel (d, tests) s D). rewrite H in K. exact K.
Qed.

Lemma start_good : forall (d : parsed) s (Q : string -> Prop) (I : parsed -> Prop), I d -> good Q I (mkC [(0, VNone)] None s d).
Proof.
  intros d s Q I D. constructor; cbn [c_stack c_la c_in c_d]; auto; try discriminate.
  - reflexivity.
  - constructor; [exact Logic.I|constructor].
Qed.

(** Steps that suffice for a text. *)
Definition enough (s : string) : nat := (60 * String.length s + 60)%nat.

Lemma loop_total : forall fuel c, good (fun _ => True) Ishort c -> (Z.of_nat (room c) <= 32767) -> (measure c < fuel)%nat ->
  exists b d', parse_loop s_to_d fuel c = Ok (b, d') /\ (List.length (d_signals (fst d')) <= room c)%nat.
Proof.
  destruct short_hyps as (H1 & H2 & H3 & H4 & H5).
  induction fuel as [|k IH]; intros c G R M; [lia|]. cbn [parse_loop].
  assert (SG := pstep_good s_to_d _ _ H1 H2 H3 H4 H5 c G). assert (SR := pstep_room s_to_d (fun _ => True) Ishort c).
  assert (SM := pstep_measure s_to_d (fun _ => True) Ishort c).
  destruct (pstep s_to_d c) as [[c'|b d']| | | |]; cbn [bind step_good] in *; try (destruct SG; fail).
  - specialize (SM _ G eq_refl). specialize (SR _ G eq_refl). cbn in SR. destruct (IH c' SG) as (b & d' & E & L); try lia.
    exists b, d'. split; auto. lia.
  - exists b, d'. split; auto. apply (SR _ G eq_refl).
  - exfalso. apply SG. apply shorts_up; [apply G|]. unfold room in R. lia.
Qed.

Theorem parse_total : forall d tests s, in_order (d_signals d) ->
  (Z.of_nat (List.length (d_signals d) + String.length s) <= 32767) ->
  exists b d' tests', parse_string s_to_d (enough s) (d, tests) s = Ok (b, (d', tests')) /\ in_order (d_signals d').
Proof.
  intros d tests s O L. assert (SH : shorts (d_signals d)) by (apply shorts_small; [lia|auto]).
  destruct (loop_total (enough s) (mkC [(0, VNone)] None s (d, tests))) as (b & [d' tests'] & E & L').
  - apply start_good. exact SH.
  - unfold room. cbn [c_d c_la c_in c_stack top fst Z.eqb]. lia.
  - unfold measure, enough, to_read. cbn [c_d c_la c_in c_stack top fst]. change (0 =? yyfinal) with false.
    change (stack_weight [(0, VNone)]) with 20%nat. change (before_nothing 0) with false. cbv iota. lia.
  - exists b, d', tests'. split; [exact E|]. apply shorts_small.
    + unfold room in L'. cbn [c_d c_la c_in c_stack top fst Z.eqb] in L'. lia.
    + eapply parse_numbers; eauto.
Qed.

(** More steps change nothing. *)
Lemma loop_more : forall k k' c r, parse_loop s_to_d k c = Ok r -> (k <= k')%nat -> parse_loop s_to_d k' c = Ok r.
Proof.
  induction k as [|k IH]; intros [|k'] c r H L; cbn [parse_loop] in *; try discriminate; [lia|].
  destruct (pstep s_to_d c) as [[c'|b d']| | | |]; cbn [bind] in *; try discriminate; auto. apply IH; auto. lia.
Qed.
Lemma parse_more : forall k k' d s r, parse_string s_to_d k d s = Ok r -> (k <= k')%nat -> parse_string s_to_d k' d s = Ok r.
Proof. intros. eapply loop_more; eauto. Qed.

(** The loop always ends. *)
Theorem parse_ends : forall d s, parse_string s_to_d (enough s) d s <> OutOfFuel.
Proof.
  intros d s. apply loop_ends with (Q := fun _ => True) (I := fun _ => True); auto.
  - apply start_good. exact Logic.I.
  - unfold measure, enough, to_read. cbn [c_d c_la c_in c_stack top fst]. change (0 =? yyfinal) with false.
    change (stack_weight [(0, VNone)]) with 20%nat. change (before_nothing 0) with false. cbv iota. lia.
Qed.
Lemma loop_less : forall k k' c r, parse_loop s_to_d k' c = Ok r -> (k <= k')%nat -> parse_loop s_to_d k c <> OutOfFuel -> parse_loop s_to_d k c = Ok r.
Proof.
  induction k as [|k IH]; intros [|k'] c r H L NE; cbn [parse_loop] in *; try discriminate; try congruence.
  destruct (pstep s_to_d c) as [[c'|b d']| | | |]; cbn [bind] in *; try discriminate; auto. apply IH with (k' := k'); auto. lia.
Qed.
Theorem parse_settled : forall k d s r, parse_string s_to_d k d s = Ok r -> parse_string s_to_d (enough s) d s = Ok r.
Proof.
  intros k d s r H. destruct (Nat.le_gt_cases k (enough s)).
  - eapply parse_more; eauto.
  - eapply loop_less; [exact H|lia|]. apply (parse_ends d s).
Qed.

(** parse_string, with the steps it needs. *)
Definition parse (d : parsed) (s : string) : res (bool * parsed) := parse_string s_to_d (enough s) d s.

(** A sequence of inputs. *)
Fixpoint parse_all (d : parsed) (l : list string) : res (list bool * parsed) :=
  match l with
  | [] => Ok ([], d)
  | s :: l' => x <- parse d s ;; y <- parse_all (snd x) l' ;; Ok (fst x :: fst y, snd y)
  end.

Lemma parse_total_length : forall d tests s, in_order (d_signals d) ->
  (Z.of_nat (List.length (d_signals d) + String.length s) <= 32767) ->
  exists b d' tests', parse (d, tests) s = Ok (b, (d', tests')) /\ in_order (d_signals d') /\ extends d d' /\
    (List.length (d_signals d') <= List.length (d_signals d) + String.length s)%nat.
Proof.
  intros d tests s O L. assert (SH : shorts (d_signals d)) by (apply shorts_small; [lia|auto]).
  destruct (loop_total (enough s) (mkC [(0, VNone)] None s (d, tests))) as (b & [d' tests'] & E & L').
  - apply start_good. exact SH.
  - unfold room. cbn [c_d c_la c_in c_stack top fst Z.eqb]. lia.
  - unfold measure, enough, to_read. cbn [c_d c_la c_in c_stack top fst]. change (0 =? yyfinal) with false.
    change (stack_weight [(0, VNone)]) with 20%nat. change (before_nothing 0) with false. cbv iota. lia.
  - unfold room in L'. cbn [c_d c_la c_in c_stack top fst Z.eqb] in L'.
    exists b, d', tests'. split; [exact E|]. split; [apply shorts_small; [lia|eapply parse_numbers; eauto]|]. split; [eapply parse_extends; eauto|lia].
Qed.

Lemma extends_refl : forall d : driver T, extends d d.
Proof. intro d. unfold extends. repeat split; auto. exists []. now rewrite app_nil_r. Qed.
Lemma extends_trans : forall a b c : driver T, extends a b -> extends b c -> extends a c.
Proof.
  intros a b c (A1 & A2 & A3 & (l & A4) & A5 & A6) (B1 & B2 & B3 & (l' & B4) & B5 & B6). unfold extends.
  repeat match goal with |- _ /\ _ => split end; try congruence; auto. exists (l ++ l')%list. rewrite B4, A4. now rewrite app_assoc.
Qed.

Theorem parse_all_total : forall l d tests, in_order (d_signals d) ->
  (Z.of_nat (List.length (d_signals d) + list_sum (map String.length l)) <= 32767) ->
  exists bs d' tests', parse_all (d, tests) l = Ok (bs, (d', tests')) /\ in_order (d_signals d') /\ extends d d'.
Proof.
  induction l as [|s l IH]; intros d tests O L.
  - exists [], d, tests. split; [reflexivity|]. split; auto. apply extends_refl.
  - unfold list_sum in L. cbn [map fold_right] in L. fold (list_sum (map String.length l)) in L.
    destruct (parse_total_length d tests s O) as (b & d1 & t1 & E & O1 & X1 & L1); [lia|].
    destruct (IH d1 t1 O1) as (bs & d' & t' & E' & O' & X'); [lia|].
    exists (b :: bs), d', t'. cbn [parse_all]. rewrite E. cbn [bind snd fst]. rewrite E'. cbn [bind snd fst]. split; [reflexivity|].
    split; auto. eapply extends_trans; eauto.
Qed.
Theorem parse_all_extends : forall l d tests bs d' tests', parse_all (d, tests) l = Ok (bs, (d', tests')) -> extends d d'.
Proof.
  induction l as [|s l IH]; intros d tests bs d' tests' H; cbn [parse_all] in H.
  - assert (d' = d) by congruence. subst. apply extends_refl.
  - destruct (parse (d, tests) s) as [[b [d1 t1]]| | | |] eqn:E; try discriminate. cbn [bind snd fst] in H.
    destruct (parse_all (d1, t1) l) as [[bs' [d2 t2]]| | | |] eqn:E2; try discriminate. cbn [bind snd fst] in H.
    assert (d' = d2) by congruence. subst. eapply extends_trans; [eapply parse_extends; exact E|eapply IH; exact E2].
Qed.
End Claims.
