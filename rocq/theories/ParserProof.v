(** The invariant of the parsing loop: the stack spells a path of the automaton, semantic
    values have the kind their symbol asks for, new names are new. *)
From Coq Require Import List Bool String Ascii ZArith Lia.
From Verif Require Import Num Base Signal Robust Transducer Driver Tables Parser Automaton.
Import ListNotations.
Local Open Scope Z_scope.

Section Inv.
Context {T : Type} {N : Num T}.
Variable s_to_d : string -> option T.
Notation sval := (sval (T := T)).
Notation conf := (conf (T := T)).
Notation parsed := (parsed (T := T)).

Variable Q : string -> Prop.     (* what holds of a new name *)
Variable I : parsed -> Prop.     (* what holds of the driver *)
Hypothesis lex_new : forall d w, I d -> word_token d w = NEW_ID -> Q w.
Hypothesis keep_formula : forall d s t, I d -> Q s -> I (d_with_formulas (fst d) (assign s t (d_formulas (fst d))), snd d).
Hypothesis keep_param : forall d k v, I d -> I (set_params_of (fst d) (assign k v (d_params (fst d))), snd d).
Hypothesis keep_signal : forall d x, I d -> Q x -> find x (d_signals (fst d)) = None ->
  I (set_signals_of (fst d) (assign x (to_short (Z.of_nat (List.length (d_signals (fst d))) + 1)) (d_signals (fst d))), snd d).
Hypothesis keep_test : forall d l, I d -> I (fst d, l).

Definition typed (sym : Z) (v : sval) : Prop :=
  if sym =? 33 then exists s, v = VStr s /\ Q s
  else if existsb (Z.eqb sym) [30; 31; 32; 34; 35; 36; 42; 51] then exists s, v = VStr s
  else if existsb (Z.eqb sym) [43; 44; 45; 46; 47; 48; 49; 50; 53] then exists t, v = VTree t
  else if sym =? 52 then exists i, v = VInt i
  else if sym =? 56 then exists b, v = VBool b
  else if sym =? 60 then exists k x, v = VMap [(k, x)]
  else if (sym =? 61) || (sym =? 62) then exists m, v = VMap m
  else True.

Definition entry (e : Z * sval) : Prop := typed (stos (fst e)) (snd e).

Fixpoint linked (st : list (Z * sval)) : Prop :=
  match st with
  | [] => False
  | (s, _) :: st' =>
      match st' with
      | [] => s = 0
      | (p, _) :: _ => In (p, s) edges /\ linked st'
      end
  end.

Definition top (st : list (Z * sval)) : Z := match st with (s, _) :: _ => s | [] => -1 end.

Record good (c : conf) : Prop := {
  g_linked : linked (c_stack c);
  g_typed : Forall entry (c_stack c);
  g_drv : I (c_d c);
  g_la : forall tok v, c_la c = Some (tok, v) -> 0 <= tok < 41 /\ typed tok v /\ 41 <= stos (top (c_stack c));
  g_new : forall v st, c_stack c = (15, v) :: st -> exists x, v = VStr x /\ Q x /\ find x (d_signals (fst (c_d c))) = None }.

(** ** Tokens *)
Lemma char_symbols : forallb (fun k => existsb (Z.eqb (yytranslate k)) [0; 2; 37; 38; 39; 40]) (map (fun z => z - 128) (upto 256)) = true.
Proof. vm_compute. reflexivity. Qed.
Lemma char_range : forall c, 0 <= code c < 256.
Proof. intro c. unfold code. assert (H := nat_ascii_bounded c). lia. Qed.
Lemma char_token_symbol : forall c, In (yytranslate (char_token c)) [0; 2; 37; 38; 39; 40].
Proof.
  intro c. assert (H := char_symbols). rewrite forallb_forall in H. apply existsb_Z, H.
  apply in_map_iff. exists (char_token c + 128). split; [lia|]. apply upto_in.
  unfold char_token. assert (R := char_range c). destruct (code c <? 128) eqn:E;
    [apply Z.ltb_lt in E|apply Z.ltb_ge in E]; lia.
Qed.

Lemma find_in : forall (A : Type) k (m : list (string * A)) v, find k m = Some v -> In (k, v) m.
Proof.
  induction m as [|[k' w] m IH]; cbn [find]; intros v H; [discriminate|].
  destruct (String.eqb_spec k k'); [injection H as <-; subst; left; auto|right; auto].
Qed.
Lemma symbol_in : forall l s k r, symbol l s = Some (k, r) -> In k (map snd l).
Proof.
  induction l as [|[p k'] l IH]; cbn [symbol]; intros s k r H; [discriminate|].
  destruct (strip p s); [injection H as <- <-; left; auto|right; eapply IH; eauto].
Qed.

Definition plain (k : Z) : bool :=
  negb (existsb (Z.eqb (yytranslate k)) [30; 31; 32; 33; 34; 35; 36]) && (0 <=? yytranslate k) && (yytranslate k <? 41).
Lemma plain_typed : forall k v, plain k = true -> 0 <= yytranslate k < 41 /\ typed (yytranslate k) v.
Proof.
  intros k v H. unfold plain in H. apply andb_prop in H. destruct H as [H B]. apply andb_prop in H. destruct H as [H A].
  apply Z.leb_le in A. apply Z.ltb_lt in B. split; [lia|].
  generalize dependent (yytranslate k). intros y H A B. assert (In y tokens) as Y by (apply upto_in; lia).
  clear A B. cbn in Y. repeat (destruct Y as [<-|Y]; [first [discriminate H|exact Logic.I]|]). destruct Y.
Qed.
Lemma reserved_plain : forallb (fun p => plain (snd p)) reserved = true.
Proof. vm_compute. reflexivity. Qed.
Lemma symbols_plain : forallb (fun p => plain (snd p)) symbols = true.
Proof. vm_compute. reflexivity. Qed.

Lemma str_typed : forall y w, In y [30; 31; 32; 34; 35; 36] -> 0 <= y < 41 /\ typed y (VStr w).
Proof.
  intros y w H. cbn [In] in H.
  repeat (destruct H as [<-|H]; [split; [lia|]; cbv [typed existsb orb Z.eqb Pos.eqb]; eauto|]). destruct H.
Qed.

Lemma yylex_typed : forall d s k v r, I d -> yylex d s = (k, v, r) -> 0 <= yytranslate k < 41 /\ typed (yytranslate k) v.
Proof.
  intros d s k v r D H. unfold yylex in H. remember (skip None s) as s0. clear Heqs0 s.
  destruct s0 as [|c s']; [injection H as <- <- <-; split; [cbv; split; congruence|exact Logic.I]|].
  destruct (is_alpha c) eqn:A.
  - destruct (span is_word (String c s')) as [w r']. remember (find w reserved) as fr eqn:R. symmetry in R. injection H as <- <- <-.
    unfold word_token. rewrite R. destruct fr as [k|].
    { apply plain_typed. assert (P := reserved_plain). rewrite forallb_forall in P.
      apply (P (w, k)). apply find_in. auto. }
    destruct (find w (d_formulas (fst d))) eqn:F1; [apply str_typed; cbn; auto 10|].
    destruct (find w (d_params (fst d))) eqn:F2; [apply str_typed; cbn; auto 10|].
    destruct (find w (d_signals (fst d))) eqn:F3; [apply str_typed; cbn; auto 10|].
    destruct (in_names w (snd d)) eqn:F4; [apply str_typed; cbn; auto 10|].
    change (yytranslate NEW_ID) with 33. split; [lia|]. exists w. split; auto.
    apply (lex_new d w); auto. unfold word_token. rewrite R, F1, F2, F3, F4. auto.
  - destruct (number (String c s')) as [[n r']|].
    { injection H as <- <- <-. apply str_typed; cbn; auto 10. }
    destruct (symbol symbols (String c s')) as [[k' r']|] eqn:Y.
    { injection H as <- <- <-. apply plain_typed. apply symbol_in, in_map_iff in Y. destruct Y as (p & <- & Y).
      assert (P := symbols_plain). rewrite forallb_forall in P. apply P; auto. }
    destruct (if code c =? 34 then quoted s' else None) as [[q r']|].
    { injection H as <- <- <-. apply str_typed; cbn; auto 10. }
    injection H as <- <- <-. assert (C := char_token_symbol c). cbn [In] in C.
    destruct C as [<-|[<-|[<-|[<-|[<-|[<-|[]]]]]]]; (split; [lia|exact Logic.I]).
Qed.

(** A new name is no signal. *)
Lemma yylex_new : forall (d : parsed) s k v r, yylex d s = (k, v, r) -> yytranslate k = 33 ->
  exists x, v = VStr x /\ word_token d x = NEW_ID /\ find x (d_signals (fst d)) = None /\ find x (d_formulas (fst d)) = None.
Proof.
  intros d s k v r H K. unfold yylex in H. remember (skip None s) as s0. clear Heqs0 s.
  destruct s0 as [|c s']; [injection H as <- <- <-; discriminate|].
  destruct (is_alpha c) eqn:A.
  - destruct (span is_word (String c s')) as [w r']. remember (find w reserved) as fr eqn:R. symmetry in R. injection H as <- <- <-.
    unfold word_token in K |- *. rewrite R in K. destruct fr as [k|].
    { apply find_in in R. exfalso. assert (P := reserved_plain). rewrite forallb_forall in P. apply P in R.
      cbn [snd] in R. unfold plain in R. rewrite K in R. discriminate. }
    exists w. split; auto. rewrite R.
    destruct (find w (d_formulas (fst d))) eqn:F1; [discriminate|].
    destruct (find w (d_params (fst d))) eqn:F2; [discriminate|].
    destruct (find w (d_signals (fst d))) eqn:F3; [discriminate|].
    destruct (in_names w (snd d)) eqn:F4; [discriminate|]. auto.
  - destruct (number (String c s')) as [[n r']|]; [injection H as <- <- <-; discriminate|].
    destruct (symbol symbols (String c s')) as [[k' r']|] eqn:Y.
    { injection H as <- <- <-. apply symbol_in, in_map_iff in Y. destruct Y as (p & <- & Y).
      assert (P := symbols_plain). rewrite forallb_forall in P. apply P in Y. unfold plain in Y. rewrite K in Y. discriminate. }
    destruct (if code c =? 34 then quoted s' else None) as [[q r']|]; [injection H as <- <- <-; discriminate|].
    injection H as <- <- <-. assert (C := char_token_symbol c). rewrite K in C. cbn [In] in C.
    repeat (destruct C as [C|C]; [discriminate|]). destruct C.
Qed.

(** ** Reductions *)
Lemma spelled : forall syms lhs st, linked st -> Forall entry st -> spells edges syms lhs (top st) = true ->
  exists s v rest s', skipn (List.length syms) st = (s, v) :: rest /\ linked ((s, v) :: rest) /\ Forall entry ((s, v) :: rest) /\
    lr_goto s lhs = Ok s' /\ In (s, s') edges /\ stos s' = lhs /\
    Forall2 typed syms (map snd (firstn (List.length syms) st)).
Proof.
  induction syms as [|x syms IH]; intros lhs st L E S.
  - destruct st as [|[s v] rest]; [destruct L|]. cbn [spells top] in S.
    destruct (lr_goto s lhs) as [s'| | | |] eqn:G; try discriminate. apply andb_prop in S. destruct S as [A B].
    apply mem_edge_in in A. apply Z.eqb_eq in B. exists s, v, rest, s'. cbn [skipn List.length firstn map]. repeat split; auto.
  - destruct st as [|[s v] st]; [destruct L|]. cbn [spells top] in S.
    apply andb_prop in S. destruct S as [S P]. apply andb_prop in S. destruct S as [A B].
    apply Z.eqb_eq in A. apply negb_true_iff, Z.eqb_neq in B.
    cbn [linked] in L. destruct st as [|[p w] st]; [contradiction|]. destruct L as [L1 L2].
    rewrite forallb_forall in P. specialize (P p (in_preds _ _ _ L1)).
    inversion E as [|? ? E1 E2]; subst.
    destruct (IH lhs ((p, w) :: st) L2 E2 P) as (s1 & v1 & rest & s' & X & Y & Z0 & U & V & W & F).
    exists s1, v1, rest, s'. cbn [List.length]. repeat match goal with |- _ /\ _ => split end; auto.
    change (firstn (S (List.length syms)) ((s, v) :: (p, w) :: st)) with ((s, v) :: firstn (List.length syms) ((p, w) :: st)).
    cbn [map snd]. constructor; auto.
Qed.

Lemma rule_in : forall r lhs rhs, rule r = Some (lhs, rhs) -> In (r, (lhs, rhs)) grammar.
Proof.
  intros r lhs rhs H. unfold rule in H. destruct (List.find _ grammar) as [[r' p]|] eqn:F; [|discriminate].
  apply find_some in F. destruct F as [F E]. cbn [fst snd] in *. apply Z.eqb_eq in E. injection H as ->. subst. auto.
Qed.

(** No negative signal number. *)
Definition numbered_up (d : parsed) : Prop := forall x i, find x (d_signals (fst d)) = Some i -> 0 <= i.

Ltac split_list F :=
  repeat match type of F with
  | Forall2 _ (_ :: _) _ => let a := fresh "V" in let b := fresh "F" in
      inversion F as [|? ? ? ? a b]; clear F; subst; rename b into F
  | Forall2 _ [] _ => inversion F; clear F; subst
  end.

Lemma act_typed : forall r lhs rhs vs d, rule r = Some (lhs, rhs) -> r <> 1 -> Forall2 typed rhs vs -> I d ->
  (r = 49 -> exists x, vs = [VStr x] /\ Q x /\ find x (d_signals (fst d)) = None) ->
  match act s_to_d r vs d with
  | Ok None => True
  | Ok (Some (v, d')) => typed lhs v /\ I d'
  | UB => ~ numbered_up d
  | _ => False
  end.
Proof.
  intros r lhs rhs vs d R R1 F D S. apply rule_in in R. cbn [grammar In] in R.
  repeat match type of R with _ \/ _ => destruct R as [R|R]; [injection R as <- <- <-; try (exfalso; apply R1; reflexivity);
      split_list F;
      repeat match goal with X : typed _ _ |- _ => cbv [typed existsb orb Z.eqb Pos.eqb] in X; first [destruct X as (? & -> & ?)|destruct X as (? & ? & ->)|destruct X as (? & ->)|clear X] end;
      cbn [act]
    |] | False => destruct R end.
  all: try (split; [cbv [typed existsb orb Z.eqb Pos.eqb]; eauto|auto; fail]).
  - (* 6 *) destruct (find x (d_signals (fst d))) as [i|] eqn:E; [|exact Logic.I].
    destruct (i =? 0); [exact Logic.I|]. destruct (i <? 0) eqn:L.
    + intro C. specialize (C x i E). apply Z.ltb_lt in L. lia.
    + split; [cbv [typed existsb orb Z.eqb Pos.eqb]; eauto|auto].
  - (* 32 *) destruct (find x (d_formulas (fst d))); [|exact Logic.I].
    split; [cbv [typed existsb orb Z.eqb Pos.eqb]; eauto|auto].
  - destruct (S eq_refl) as (y & E & A & B). injection E as ->. split; [exact Logic.I|]. auto.
Qed.

Lemma linked_states : forall st, linked st -> In (top st) states.
Proof.
  intros [|[s v] st] L; [destruct L|]. cbn [top linked] in *. destruct st as [|[p w] st].
  - subst. apply upto_in. lia.
  - destruct L as [L _]. apply edge_target in L. tauto.
Qed.

(** What one step leads to. *)
Definition step_good (d : parsed) (o : res (outcome (T := T))) : Prop :=
  match o with
  | Ok (Next c) => good c
  | Ok (Return _ d') => I d'
  | UB => ~ numbered_up d
  | _ => False
  end.

Lemma not_15 : forall s, 41 <= stos s -> s <> 15.
Proof. intros s H ->. cbv in H. congruence. Qed.

Lemma Forall2_reverse : forall (A B : Type) (R : A -> B -> Prop) l l', Forall2 R l l' -> Forall2 R (rev l) (rev l').
Proof. induction 1; cbn [rev]; [constructor|]. apply Forall2_app; auto. Qed.

Lemma reduce_good : forall c r, linked (c_stack c) -> Forall entry (c_stack c) -> I (c_d c) ->
  (forall tok v, c_la c = Some (tok, v) -> 0 <= tok < 41 /\ typed tok v) ->
  (forall v st, c_stack c = (15, v) :: st -> exists x, v = VStr x /\ Q x /\ find x (d_signals (fst (c_d c))) = None) ->
  In (Reduce r) (acts (top (c_stack c))) -> step_good (c_d c) (reduce s_to_d c r).
Proof.
  intros c r L E D LA NW A.
  assert (S := linked_states _ L). destruct (acts_reduce _ _ S A) as (lhs & rhs & R & R1 & P & T1 & T2).
  destruct (spelled _ _ _ L E P) as (s & v & rest & s' & X & L' & E' & GO & ED & ST & F).
  rewrite rev_length in X, F. unfold reduce. rewrite T1, T2. cbn [bind]. rewrite Nat2Z.id, X. cbn [bind]. rewrite GO. cbn [bind].
  assert (F2 : Forall2 typed rhs (rev (map snd (firstn (List.length rhs) (c_stack c))))).
  { rewrite <- (rev_involutive rhs) at 1. apply Forall2_reverse. auto. }
  assert (N49 : r = 49 -> exists x, rev (map snd (firstn (List.length rhs) (c_stack c))) = [VStr x] /\ Q x /\ find x (d_signals (fst (c_d c))) = None).
  { intros ->. injection R as <- <-. apply reduce_49 in A; auto. cbn [List.length firstn].
    destruct (c_stack c) as [|[s0 v0] st0] eqn:C; [destruct L|]. cbn [top] in A. subst s0.
    destruct (NW v0 st0 eq_refl) as (x & -> & H1 & H2). exists x. auto. }
  assert (AT := act_typed r lhs rhs _ (c_d c) R R1 F2 D N49).
  assert (LN : 41 <= lhs).
  { apply rule_in in R. cbn [grammar In] in R.
    repeat match type of R with _ \/ _ => destruct R as [R|R]; [injection R as <- <- <-; lia|] | False => destruct R end. }
  destruct (act s_to_d r _ (c_d c)) as [[[x d']|]| | | |]; cbn [bind]; auto.
  destruct AT as [TY D']. cbn [step_good]. constructor; cbn [c_stack c_la c_in c_d]; auto.
  - split; auto.
  - constructor; auto. unfold entry. cbn [fst snd]. rewrite ST. auto.
  - intros tok w H. cbn [top]. rewrite ST. destruct (LA _ _ H) as (B & C). auto.
  - intros w st H. injection H as -> _ _. exfalso. apply (not_15 15); [rewrite ST; auto|auto].
Qed.

Lemma pstep_good : forall c, good c -> step_good (c_d c) (pstep s_to_d c).
Proof.
  intros c G. assert (G0 := G). destruct G as [L E D LA NW]. unfold pstep.
  assert (S := linked_states _ L). destruct (c_stack c) as [|[s v] st] eqn:C; [destruct L|]. cbn [top] in S.
  destruct (Z.eqb_spec s yyfinal) as [F|F]; [exact D|].
  destruct (state_total s S) as [[B [a DA]]|[B DT]]; rewrite B; cbn [bind].
  - rewrite DA. cbn [bind]. destruct a as [s'|r|]; [exact D| |exact D].
    apply reduce_good; rewrite ?C; auto; [intros tok w H; destruct (LA _ _ H) as (A1 & A2 & _); auto|].
    apply default_acts; auto.
  - assert (exists tok w rest, (match c_la c with
            | Some (tok, v0) => (tok, v0, c_in c)
            | None => let '(k, v0, r) := yylex (c_d c) (c_in c) in (yytranslate k, v0, r) end) = (tok, w, rest) /\
            0 <= tok < 41 /\ typed tok w /\
            (c_la c = None -> tok = 33 -> exists x, w = VStr x /\ Q x /\ find x (d_signals (fst (c_d c))) = None))
      as (tok & w & rest & EQ & RG & TY & NEW).
    { destruct (c_la c) as [[tok w]|] eqn:LA0.
      - destruct (LA _ _ eq_refl) as (A1 & A2 & _). exists tok, w, (c_in c). repeat split; auto; try lia. discriminate.
      - destruct (yylex (c_d c) (c_in c)) as [[k w] r] eqn:Y. exists (yytranslate k), w, r.
        destruct (yylex_typed _ _ _ _ _ D Y) as [A1 A2]. repeat split; auto; try lia.
        intros _ K. destruct (yylex_new _ _ _ _ _ Y K) as (x & -> & W & N1 & _). exists x. repeat split; auto. eapply lex_new; eauto. }
    rewrite EQ. destruct (DT tok RG) as [a DA]. rewrite DA. cbn [bind].
    assert (AC := decide_acts s tok a F B RG DA).
    destruct a as [s'|r|]; [| |exact D].
    + cbn [step_good]. assert (ED := acts_shift _ _ S AC). destruct (shift_state s tok s' S F RG DA) as [ST _].
      constructor; cbn [c_stack c_la c_in c_d]; auto.
      * split; auto.
      * constructor; auto. unfold entry. cbn [fst snd]. rewrite ST. auto.
      * discriminate.
      * intros w' st' H. injection H as -> -> _. assert (tok = 33) as -> by (rewrite <- ST; reflexivity).
        apply NEW; auto. destruct (c_la c) as [[tok0 w0]|] eqn:LA0; auto. exfalso.
        destruct (LA _ _ eq_refl) as (_ & _ & A3). cbn [top] in A3. apply pred_15 in ED. lia.
    + apply (reduce_good (mkC ((s, v) :: st) (Some (tok, w)) rest (c_d c))); cbn [c_stack c_la c_in c_d]; auto.
      intros tok' w' H. injection H as <- <-. auto.
Qed.

Lemma parse_loop_good : forall fuel c, good c ->
  match parse_loop s_to_d fuel c with
  | Ok (_, d') => I d'
  | UB => exists d', I d' /\ ~ numbered_up d'
  | OutOfFuel => True
  | _ => False
  end.
Proof.
  induction fuel as [|k IH]; intros c G; cbn [parse_loop]; [exact Logic.I|].
  assert (H := pstep_good c G). destruct (pstep s_to_d c) as [[c'|b d']| | | |]; cbn [bind step_good] in *; auto.
  - apply IH; auto.
  - exists (c_d c). split; auto. apply G.
Qed.

Theorem parse_keeps : forall fuel d s, I d ->
  match parse_string s_to_d fuel d s with
  | Ok (_, d') => I d'
  | UB => exists d', I d' /\ ~ numbered_up d'
  | OutOfFuel => True
  | _ => False
  end.
Proof.
  intros fuel d s D. apply parse_loop_good. constructor; cbn [c_stack c_la c_in c_d].
  - reflexivity.
  - constructor; [exact Logic.I|constructor].
  - auto.
  - discriminate.
  - discriminate.
Qed.
End Inv.
