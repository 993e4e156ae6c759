(** The generated scanner, the lexer of Parser.v and the rules. *)
From Coq Require Import List Bool String Ascii ZArith Arith Lia.
From Verif Require Import Num Base Signal Robust Transducer Driver Tables Parser FlexTables Flex FlexSpec FlexProof FlexRegex FlexLex.
Import ListNotations.
Local Open Scope string_scope.
Local Open Scope nat_scope.

Lemma sub_front : forall w r, substring 0 (String.length w) (w ++ r) = w.
Proof. induction w as [|c w IH]; intro r; cbn; [destruct r; reflexivity|]. f_equal. apply IH. Qed.
Lemma sub_back : forall w r m, String.length r <= m -> substring (String.length w) m (w ++ r) = r.
Proof.
  induction w as [|c w IH]; intros r m L; cbn [append String.length substring]; [|apply IH; exact L].
  revert m L. induction r as [|c r IHr]; intros [|m] L; cbn in *; try reflexivity; try lia. f_equal. apply IHr. lia.
Qed.
Lemma prefix_split : forall w b r x : string, b ++ x = w ++ r -> String.length w <= String.length b -> exists b', b = w ++ b' /\ r = b' ++ x.
Proof.
  induction w as [|c w IH]; intros b r x E L; cbn [append String.length] in *; [exists b; auto|]. destruct b as [|c' b]; cbn [String.length] in L; [lia|].
  cbn [append] in E. injection E as <- E. destruct (IH b r x E ltac:(lia)) as (b' & -> & ->). exists b'. auto.
Qed.
Lemma in_act : forall q, state q = true -> acc q <> 0 -> 1 <= acc q /\ acc q <= 32.
Proof.
  intros q S A. assert (H : (1 <=? acc q) && (acc q <=? 32) || (acc q =? 0) = true).
  { apply (every_state (fun q => (1 <=? acc q) && (acc q <=? 32) || (acc q =? 0))); [|exact S]. Transparent acc. vm_compute. reflexivity. }
  apply orb_prop in H as [H|H]; [|apply Nat.eqb_eq in H; contradiction]. apply andb_prop in H as [H1 H2]. apply Nat.leb_le in H1, H2. auto.
Qed.
Opaque acc.

Section Scan.
Context {T : Type} {N : Num T}.
Variable d : parsed (T := T).
Local Notation sval := (sval (T := T)).

(** The token and value of a match, as the actions have it. *)
Definition token_value (o : option (nat * string)) : option (Z * sval) :=
  match o with
  | None => Some (0%Z, VNone)
  | Some (k, w) => match act_on d k w with Ok (Some p) => Some p | _ => None end
  end.

Lemma yylex_skip : forall s s', skip None s = skip None s' -> yylex d s = yylex d s'.
Proof. intros s s' E. unfold yylex. rewrite E. reflexivity. Qed.
Lemma act_left_out : forall k w, act_on d k w = Ok None <-> left_out k.
Proof.
  intros k w. unfold left_out. split.
  - intro H. do 33 (destruct k as [|k]; [first [discriminate H | lia | destruct w; discriminate H]|]). discriminate H.
  - intros [->|[->| ->]]; reflexivity.
Qed.
Lemma lexed_token : forall t, t <> "" -> exists w r, t = w ++ r /\ String.length w = snd (token t) /\ w <> "" /\ taken (acc (fst (token t))) w t /\
  ((act_on d (acc (fst (token t))) w = Ok None /\ yylex d t = yylex d r) \/
   (exists k v, act_on d (acc (fst (token t))) w = Ok (Some (k, v)) /\ yylex d t = (k, v, r))).
Proof.
  intros t H. destruct (lex_step d t H) as (w & r & E & L & A). destruct (token_taken t H) as (w' & r' & E' & L' & Tk). destruct (token_good t H) as (_ & _ & G & _).
  assert (w = w').
  { rewrite E in E'. assert (String.length w = String.length w') by congruence. clear -E' H0. revert w' E' H0.
    induction w as [|c w IH]; intros [|c' w'] E H; cbn in *; try discriminate; [reflexivity|]. injection E as <- E. f_equal. apply IH; [exact E|lia]. }
  subst w'. exists w, r. split; [exact E|]. split; [exact L|]. split; [intros ->; cbn in L; lia|]. split; [exact Tk|].
  destruct A as [[A S]|A]; [left; split; [exact A|apply yylex_skip; exact S]|right; exact A].
Qed.

(** A call, whatever the division into pieces. *)
Lemma flex_ok : forall n i last, pieces i -> String.length (all_text i) < n ->
  exists t v i' last' o, flex n d i last = Ok (t, v, i', last') /\ pieces i' /\ yylex d (all_text i) = (t, v, all_text i') /\
    next_token (all_text i) o (all_text i') /\ token_value o = Some (t, v).
Proof.
  induction n as [|n IH]; intros i last P L; [lia|]. cbn [flex]. destruct (scan_token i last P) as (i1 & last1 & E1 & P1 & S & B). rewrite S. cbn [bind].
  destruct (String.eqb_spec (all_text i) "") as [Z|Z].
  - exists 0%Z, VNone, i1, last1, None. split; [reflexivity|]. split; [exact P1|]. rewrite E1, Z. split; [reflexivity|]. split; [constructor|reflexivity].
  - specialize (B Z). destruct (lexed_token (all_text i) Z) as (w & r & E & Lw & NE & Tk & A).
    assert (SP : exists b', in_buf i1 = w ++ b' /\ r = b' ++ fold_right append "" (in_reads i1)).
    { apply prefix_split; [rewrite <- E; exact E1|lia]. }
    destruct SP as (b' & E2 & E3). rewrite <- Lw, E2, sub_front, sub_back by (rewrite length_append; lia).
    set (i2 := mkIn b' (in_reads i1)). assert (T2 : all_text i2 = r) by (unfold all_text, i2; cbn [in_buf in_reads]; auto).
    destruct A as [[A Y]|(k & v & A & Y)]; rewrite A; cbn [bind].
    + destruct (IH i2 last1) as (t & v & i' & last' & o & F & P' & Y' & Nx & V).
      { exact P1. }
      { rewrite T2. rewrite E, length_append in L. destruct w; [congruence|]. cbn [String.length] in L. lia. }
      exists t, v, i', last', o. rewrite F, Y, <- T2. split; [reflexivity|]. split; [exact P'|]. split; [exact Y'|]. split; [|exact V].
      rewrite E. rewrite T2 in Nx. apply (Nt_skip (acc (fst (token (all_text i)))) w r); [rewrite <- E; exact Tk|eapply act_left_out; exact A|exact Nx].
    + exists k, v, i2, last1, (Some (acc (fst (token (all_text i))), w)). split; [reflexivity|]. split; [exact P1|]. rewrite T2. split; [exact Y|]. split.
      * pose proof Tk as Tk'. rewrite E in Tk' at 2. rewrite E at 1. constructor; [exact Tk'|]. intro LO. apply (act_left_out _ w) in LO. congruence.
      * cbn [token_value]. rewrite A. reflexivity.
Qed.
Lemma next_unique : forall s o r, next_token s o r -> forall o' r', next_token s o' r' -> o = o' /\ r = r'.
Proof.
  assert (NE : forall k r, ~ taken k "" r).
  { intros k r (_ & B & _). destruct (done_rule "") as [[_ D]|[D _]]; [exact (D k B)|]. apply D. vm_compute. reflexivity. }
  assert (CUT : forall a b c : string, a ++ b = a ++ c -> b = c) by (induction a as [|x a IH]; intros b c E; [exact E|]; injection E; apply IH).
  intros s o r H. induction H as [|k w r o r1 Tk LO H IH|k w r Tk LO]; intros o' r' H'.
  - inversion H' as [|k w r o r1 Tk LO H E|k w r Tk LO E]; [auto| |]; destruct w; try discriminate; exfalso; eapply NE; eassumption.
  - remember (w ++ r) as s. destruct H' as [|k' w' r0 o' r1' Tk' LO' H'|k' w' r0 Tk' LO'].
    + destruct w; [|discriminate]. exfalso. eapply NE; eassumption.
    + destruct (taken_unique _ _ _ _ _ Tk Tk') as [-> ->]. apply CUT in Heqs. subst. apply IH. exact H'.
    + destruct (taken_unique _ _ _ _ _ Tk Tk') as [-> ->]. contradiction.
  - remember (w ++ r) as s. destruct H' as [|k' w' r0 o' r1' Tk' LO' H'|k' w' r0 Tk' LO'].
    + destruct w; [|discriminate]. exfalso. eapply NE; eassumption.
    + destruct (taken_unique _ _ _ _ _ Tk Tk') as [-> ->]. contradiction.
    + destruct (taken_unique _ _ _ _ _ Tk Tk') as [-> ->]. apply CUT in Heqs. subst. auto.
Qed.
Lemma string_rule : forall w, by_rule 29 w -> exists s, w = """" ++ s ++ """".
Proof.
  intros w (r & _ & H & M). cbn in H. injection H as <-. apply seq_inv in M as (a & b & -> & Ma & M). apply seq_inv in M as (s & e & -> & _ & Me).
  assert (Q : forall x, matches quote x -> x = """").
  { intros x Hx. inversion Hx as [|but l c Hc| | | | |]; subst. unfold in_set, in_ranges in Hc. cbn [existsb fst snd] in Hc.
    destruct (34 <=? nat_of_ascii c) eqn:H1; [|discriminate Hc]. destruct (nat_of_ascii c <=? 34) eqn:H2; [|discriminate Hc]. apply Nat.leb_le in H1, H2. rewrite <- (ascii_nat_embedding c). replace (nat_of_ascii c) with 34 by lia. reflexivity. }
  apply Q in Ma, Me. subst. exists s. reflexivity.
Qed.
Lemma char_rule : forall w, by_rule 31 w -> exists c, w = String c "".
Proof. intros w (r & _ & H & M). cbn in H. injection H as <-. inversion M; subst. eauto. Qed.
Lemma value_means : forall s o r t v, next_token s o r -> token_value o = Some (t, v) -> means d o t v.
Proof.
  intros s o r t v H. induction H as [|k w r o r1 Tk LO H IH|k w r Tk LO]; intro V.
  - cbn in V. injection V as <- <-. constructor.
  - apply IH. exact V.
  - destruct Tk as (_ & B & _). cbn [token_value] in V. unfold left_out in LO.
    do 3 (destruct k as [|k]; [first [discriminate V | lia]|]).
    do 22 (destruct k as [|k]; [cbn in V; injection V as <- <-; apply (Me_symbol d); [lia|reflexivity]|]).
    destruct k as [|k].
    { cbn [act_on] in V. unfold word_token at 1 in V. destruct (find w reserved) as [z|] eqn:F; injection V as <- <-; [constructor; exact F|].
      pose proof (Me_word d w F) as M. unfold word_token in M. rewrite F in M. exact M. }
    do 3 (destruct k as [|k]; [cbn in V; injection V as <- <-; apply (Me_number d); lia|]).
    destruct k as [|k].
    { destruct (string_rule w B) as (s & ->). cbn [act_on] in V. injection V as <- <-.
      rewrite length_append. replace (String.length s + String.length """" - 1) with (String.length s) by (cbn; lia). rewrite sub_front. apply Me_string. }
    destruct k as [|k]; [lia|]. destruct k as [|k].
    { destruct (char_rule w B) as (c & ->). cbn [act_on] in V. injection V as <- <-. apply Me_char. }
    cbn in V. discriminate.
Qed.
Lemma flex_means : forall n i last, pieces i -> String.length (all_text i) < n ->
  exists t v i' last' o, flex n d i last = Ok (t, v, i', last') /\ pieces i' /\ next_token (all_text i) o (all_text i') /\ means d o t v.
Proof.
  intros n i last P L. destruct (flex_ok n i last P L) as (t & v & i' & last' & o & F & P' & _ & Nx & V).
  exists t, v, i', last', o. split; [exact F|]. split; [exact P'|]. split; [exact Nx|]. exact (value_means _ _ _ _ _ Nx V).
Qed.
Lemma flex_yylex : forall n i last, pieces i -> String.length (all_text i) < n ->
  exists t v i' last', flex n d i last = Ok (t, v, i', last') /\ pieces i' /\ yylex d (all_text i) = (t, v, all_text i').
Proof. intros n i last P L. destruct (flex_ok n i last P L) as (t & v & i' & last' & o & F & P' & Y & _). eauto 8. Qed.
Lemma yylex_means : forall s, exists o, next_token s o (snd (yylex d s)) /\ means d o (fst (fst (yylex d s))) (snd (fst (yylex d s))).
Proof.
  intro s. assert (A : all_text (mkIn s []) = s) by (unfold all_text; cbn; clear; induction s as [|c s IH]; [reflexivity|]; cbn; f_equal; exact IH).
  destruct (flex_ok (S (String.length s)) (mkIn s []) (0, 0)) as (t & v & i' & last' & o & F & P' & Y & Nx & V); [constructor|rewrite A; lia|].
  rewrite A in *. rewrite Y. cbn [fst snd]. exists o. split; [exact Nx|]. exact (value_means _ _ _ _ _ Nx V).
Qed.
End Scan.

(** ** One call after the other *)
Section Calls.
Context {T : Type} {N : Num T}.
Local Notation parsed := (parsed (T := T)).
(** The driver may change from call to call. *)
Fixpoint calls (ds : list parsed) (i : input) (last : mark) : res (list (Z * sval (T := T))) :=
  match ds with
  | [] => Ok []
  | d :: ds' =>
      '(t, v, i', last') <- flex (S (String.length (all_text i))) d i last ;;
      l <- calls ds' i' last' ;;
      Ok ((t, v) :: l)
  end.
Fixpoint lexer_calls (ds : list parsed) (s : string) : list (Z * sval (T := T)) :=
  match ds with [] => [] | d :: ds' => let '(t, v, r) := yylex d s in (t, v) :: lexer_calls ds' r end.
Lemma calls_ok : forall ds i last, pieces i -> calls ds i last = Ok (lexer_calls ds (all_text i)).
Proof.
  induction ds as [|d ds IH]; intros i last P; [reflexivity|]. cbn [calls lexer_calls].
  destruct (flex_yylex d _ i last P (Nat.lt_succ_diag_r _)) as (t & v & i' & last' & -> & P' & ->). cbn [bind]. rewrite (IH i' last' P'). reflexivity.
Qed.
End Calls.
