(** The scanner finds every word of the language: where the longest piece is a word, it returns that word. *)
From Coq Require Import List Bool String Ascii ZArith Lia.
From Verif Require Import Num Base Signal Robust Transducer TreeProof Driver Tables Parser Automaton ParserProof ParserSpec ParserTotal PrecProof LexProof LangSpec LangLex.
Import ListNotations.
Local Open Scope string_scope.
Local Open Scope Z_scope.

Section Read.
Context {T : Type} {N : Num T}.
Notation parsed := (parsed (T := T)).
Variable d : parsed.

Lemma same_start : forall a b u v : string, a ++ u = b ++ v -> String.length a = String.length b -> a = b /\ u = v.
Proof.
  induction a as [|c a IH]; intros [|c' b] u v E L; cbn in *; try discriminate; [auto|].
  injection E as <- E. injection L as L. destruct (IH _ _ _ E L). subst. auto.
Qed.
Lemma longest_word : forall w r, identifier w -> longest w r -> match r with String c _ => wordly c = false | EmptyString => True end.
Proof.
  intros w [|c r] (a & u & -> & L & A) LO; [exact Logic.I|]. destruct (wordly c) eqn:E; [|reflexivity]. exfalso.
  assert (H : (String.length (String a (u ++ String c "")) <= String.length (String a u))%nat).
  { apply (LO _ r).
    - cbn [append]. rewrite append_assoc. reflexivity.
    - left. exists a, (u ++ String c ""). split; [reflexivity|]. split; [exact L|]. apply all_app. split; [exact A|]. unfold all. cbn. now rewrite E. }
  cbn [String.length] in H. rewrite length_app in H. cbn in H. lia.
Qed.
Lemma longest_number : forall w r, numeral w -> longest w r -> number (w ++ r) = Some (w, r).
Proof.
  intros w r NU LO. destruct (number (w ++ r)) as [[n r']|] eqn:E; [|exfalso; exact (number_none _ _ NU E)].
  destruct (number_split _ _ _ E) as (E' & NN & MX).
  assert (A : (String.length w <= String.length n)%nat) by (apply (MX _ r); auto).
  assert (B : (String.length n <= String.length w)%nat) by (apply (LO _ r'); [exact E'|right; left; exact NN]).
  destruct (same_start w n r r' E' ltac:(lia)). congruence.
Qed.
Lemma symbols_unique : forall w k k', In (w, k) symbols -> In (w, k') symbols -> k = k'.
Proof.
  assert (H : forallb (fun p => forallb (fun q => negb (String.eqb (fst p) (fst q)) || (snd p =? snd q)) symbols) symbols = true) by (vm_compute; reflexivity).
  intros w k k' A B. rewrite forallb_forall in H. specialize (H _ A). rewrite forallb_forall in H. specialize (H _ B). cbn [fst snd] in H.
  rewrite String.eqb_refl in H. cbn [negb orb] in H. now apply Z.eqb_eq in H.
Qed.
Lemma symbols_texts : forall w k, In (w, k) symbols -> In w symbol_texts.
Proof.
  intros w k H. unfold symbols in H. cbn [In] in H. repeat (destruct H as [E|H]; [injection E as <- _; cbn; tauto|]). destruct H.
Qed.
Lemma longest_symbol : forall w k r, In (w, k) symbols -> longest w r -> symbol symbols (w ++ r) = Some (k, r).
Proof.
  intros w k r I LO. destruct (symbol symbols (w ++ r)) as [[k' r']|] eqn:E; [|exfalso; exact (symbol_none _ _ _ _ _ I eq_refl E)].
  destruct (symbol_split _ _ _ _ symbols_sorted E) as (w' & I' & E' & MX).
  assert (A : (String.length w <= String.length w')%nat) by (apply (MX _ k r); auto).
  assert (B : (String.length w' <= String.length w)%nat) by (apply (LO _ r'); [exact E'|right; right; left; eapply symbols_texts; eauto]).
  destruct (same_start w w' r r' E' ltac:(lia)). subst. rewrite (symbols_unique _ _ _ I I'). reflexivity.
Qed.
(** No number starts where a symbol is the longest piece. *)
Lemma numeral_two : forall u c, numeral (String c u) -> sign c = true -> u <> "".
Proof.
  intros u c [M|(m & M & E)] S.
  - destruct (magnitude_no_sign _ M) as (c' & r & E & F). injection E as <- _. congruence.
  - destruct (magnitude_no_sign _ M) as (c' & r & -> & F). destruct E as [E|E]; injection E as _ ->; discriminate.
Qed.
Lemma symbol_no_number : forall w k r, In (w, k) symbols -> longest w r -> number (w ++ r) = None.
Proof.
  intros w k r I LO. destruct (number (w ++ r)) as [[n r']|] eqn:E; [exfalso|reflexivity].
  destruct (number_split _ _ _ E) as (E' & NN & _).
  assert (B : (String.length n <= String.length w)%nat) by (apply (LO _ r'); [exact E'|right; left; exact NN]).
  assert (X : forall c u, w = String c u -> is_digit c || one_of "+-." c = false -> False).
  { intros c u -> F. cbn [append] in E. rewrite number_other in E by exact F. discriminate. }
  unfold symbols in I. cbn [In] in I.
  repeat (destruct I as [Q|I]; [injection Q as <- <-; try (eapply X; [reflexivity|reflexivity])|]); try destruct I;
  (destruct n as [|c n]; [destruct NN as [M|(m & _ & [Q|Q])]; [destruct (magnitude_starts _ M) as (? & ? & Q & _)| |]; discriminate Q|];
   cbn [append String.length] in *; injection E' as <- E'; try (destruct n as [|c n]; [exact (numeral_two _ _ NN eq_refl eq_refl)|cbn [String.length] in B; lia])).
  (* -> *)
  destruct n as [|c n]; [exact (numeral_two _ _ NN eq_refl eq_refl)|]. cbn [append] in E'. injection E' as <- E'.
  destruct NN as [M|(m & M & Q)].
  - destruct (magnitude_no_sign _ M) as (c & u & Q & F). injection Q as <- _. discriminate F.
  - destruct Q as [Q|Q]; [discriminate Q|injection Q as Q]. subst m. destruct (magnitude_starts _ M) as (c & u & Q & F). injection Q as <- _. discriminate F.
Qed.

Lemma lex_other : forall g c s, gap g -> is_blank c = false -> (code c =? 35) = false -> is_alpha c = false ->
  yylex d (g ++ String c s) = match number (String c s) with
      | Some (n, r) => (CONSTANT, VStr n, r)
      | None =>
          match symbol symbols (String c s) with
          | Some (k, r) => (k, VNone, r)
          | None =>
              match (if code c =? 34 then quoted s else None) with
              | Some (q, r) => (STRING, VStr q, r)
              | None => (char_token c, VNone, s)
              end
          end
      end.
Proof. intros g c s G A B C. rewrite lex_gap by exact G. unfold yylex. rewrite skip_stop by auto. rewrite C. reflexivity. Qed.

Lemma symbol_lex : forall g w k r, gap g -> In (w, k) symbols -> longest w r -> yylex d (g ++ w ++ r) = (k, VNone, r).
Proof.
  intros g w k r G I LO. assert (A := symbol_no_number w k r I LO). assert (B := longest_symbol w k r I LO).
  assert (X : forall c u, w = String c u -> is_blank c = false -> (code c =? 35) = false -> is_alpha c = false -> yylex d (g ++ w ++ r) = (k, VNone, r)).
  { intros c u -> H1 H2 H3. cbn [append] in *. rewrite lex_other by auto. rewrite A, B. reflexivity. }
  clear A B LO. unfold symbols in I. cbn [In] in I.
  repeat (destruct I as [Q|I]; [injection Q as <- <-; eapply X; reflexivity|]). destruct I.
Qed.
Lemma number_lex : forall g w r, gap g -> numeral w -> longest w r -> yylex d (g ++ w ++ r) = (CONSTANT, VStr w, r).
Proof.
  intros g w r G NU LO. assert (A := longest_number w r NU LO).
  assert (X : exists c u, w = String c u /\ is_blank c = false /\ (code c =? 35) = false /\ is_alpha c = false).
  { destruct NU as [M|(m & M & [->| ->])]; [|do 2 eexists; repeat split; reflexivity|do 2 eexists; repeat split; reflexivity].
    destruct (magnitude_starts _ M) as (c & u & -> & F). exists c, u. split; [reflexivity|].
    assert (H : implb (digit c || one_of "." c) (negb (is_blank c) && negb (code c =? 35) && negb (is_alpha c)) = true) by every c.
    rewrite F in H. cbn [implb] in H. rewrite !andb_true_iff, !negb_true_iff in H. tauto. }
  destruct X as (c & u & -> & X1 & X2 & X3). cbn [append] in *. rewrite lex_other by auto. rewrite A. reflexivity.
Qed.
Lemma text_lex : forall g q r, gap g -> quotable q -> longest (literal q) r -> yylex d (g ++ literal q ++ r) = (STRING, VStr q, r).
Proof.
  intros g q r G Q LO. unfold literal in *. cbn [append] in *. rewrite lex_other by (auto; reflexivity).
  rewrite number_other by reflexivity. change (symbol symbols (String quote_char ((q ++ String quote_char "") ++ r))) with (@None (Z * string)).
  change (code quote_char =? 34) with true. cbv iota. rewrite append_assoc. cbn [append].
  destruct (quoted (q ++ String quote_char r)) as [[q' r']|] eqn:E; [|exfalso; exact (quoted_some q Q r E)].
  destruct (quoted_split (String.length (q ++ String quote_char r)) _ _ _ (le_n _) E) as (Q' & E').
  assert (A := quoted_longest q Q r q' r' Q' E').
  assert (B := quoted_longest q' Q' r' q r Q (eq_sym E')).
  destruct (same_start q q' _ _ E' ltac:(lia)) as (-> & E2). injection E2 as ->. reflexivity.
Qed.
Lemma char_lex : forall g c r, gap g -> In c [":"; "="; "{"; "}"]%char -> longest (String c "") r -> yylex d (g ++ String c "" ++ r) = (char_token c, VNone, r).
Proof.
  intros g c r G I LO. cbn [append].
  assert (X : is_blank c = false /\ (code c =? 35) = false /\ is_alpha c = false /\ is_digit c || one_of "+-." c = false /\ (code c =? 34) = false /\ ~ In (String c "") symbol_texts).
  { cbn [In] in I. repeat (destruct I as [<-|I]; [repeat split; try reflexivity; cbn; intuition discriminate|]). destruct I. }
  destruct X as (X1 & X2 & X3 & X4 & X5 & X6). rewrite lex_other by auto. rewrite number_other, X5 by exact X4.
  destruct (symbol symbols (String c r)) as [[k r']|] eqn:E; [exfalso|reflexivity].
  destruct (symbol_split _ _ _ _ symbols_sorted E) as (w & IW & E' & _). apply symbols_texts in IW. destruct (symbol_first _ IW) as (c' & u & -> & _).
  cbn [append] in E'. injection E' as <- E'.
  assert (B : (String.length (String c u) <= 1)%nat) by (apply (LO _ r'); [cbn; congruence|right; right; left; exact IW]).
  destruct u; [contradiction|cbn in B; lia].
Qed.
Lemma word_lex : forall g w r, gap g -> identifier w -> longest w r ->
  yylex d (g ++ w ++ r) = (word_token d w, match find w reserved with Some _ => VNone | None => VStr w end, r).
Proof. intros g w r G I LO. apply lex_word; auto. eapply longest_word; eauto. Qed.

Lemma reserved_lex : forall g w k r, gap g -> find w reserved = Some k -> longest w r -> yylex d (g ++ w ++ r) = (k, VNone, r).
Proof.
  intros g w k r G F LO. rewrite word_lex; auto; [|eapply reserved_fixed; eauto]. unfold word_token. rewrite F. reflexivity.
Qed.
Lemma name_lex : forall g w k r, gap g -> identifier w -> ~ In w keywords -> word_token d w = k -> longest w r -> yylex d (g ++ w ++ r) = (k, VStr w, r).
Proof. intros g w k r G I NK F LO. apply symbol_keywords in NK. rewrite word_lex, F, NK by auto. reflexivity. Qed.

Lemma in_names_in : forall x l, in_names x l = true <-> In x l.
Proof.
  intros x l. unfold in_names. rewrite existsb_exists. split; [intros (y & I & E); apply String.eqb_eq in E; now subst|]. intro I. exists x. split; auto. apply String.eqb_refl.
Qed.

Lemma lex_spelled : forall g k w r, gap g -> spells_word d k w -> longest w r ->
  exists kk, yylex d (g ++ w ++ r) = (kk, wval k, r) /\ yytranslate kk = wnum k.
Proof.
  intros g k w r G SP LO.
  assert (FIX : forall kk, In (w, kk) symbols \/ find w reserved = Some kk -> wval (T := T) k = VNone -> yytranslate kk = wnum k ->
    exists kk, yylex d (g ++ w ++ r) = (kk, wval k, r) /\ yytranslate kk = wnum k).
  { intros kk [I|I] -> E; exists kk; (split; [|exact E]); [apply symbol_lex|apply reserved_lex]; auto. }
  destruct SP as [k w S|k w I|w F|w I NK NF NP NS NT|s Q].
  - destruct S as [k w I|w I|w I NK FW|w I NK FW PW|w I NK FW PW SW].
    + unfold fixed in I. cbn [In] in I.
      repeat (destruct I as [Q|I]; [injection Q as <- <-; first [eapply FIX; [right; reflexivity|reflexivity|reflexivity]
        |eapply FIX; [left; unfold symbols; cbn [In]; repeat (first [left; reflexivity|right])|reflexivity|reflexivity]]|]). destruct I.
    + exists CONSTANT. split; [apply number_lex; auto|reflexivity].
    + exists PHI_ID. split; [|reflexivity]. apply name_lex; auto. unfold word_token. apply symbol_keywords in NK. rewrite NK. destruct (find w (d_formulas (fst d))); congruence.
    + exists PARAM_ID. split; [|reflexivity]. apply name_lex; auto. unfold word_token. apply symbol_keywords in NK. rewrite NK, FW. destruct (find w (d_params (fst d))); congruence.
    + exists SIGNAL_ID. split; [|reflexivity]. apply name_lex; auto. unfold word_token. apply symbol_keywords in NK. rewrite NK, FW, PW. destruct (find w (d_signals (fst d))); congruence.
  - unfold marks in I. cbn [In] in I.
    repeat (destruct I as [Q|I]; [injection Q as <- <-; first [eapply FIX; [right; reflexivity|reflexivity|reflexivity]
        |eapply FIX; [left; unfold symbols; cbn [In]; repeat (first [left; reflexivity|right])|reflexivity|reflexivity]
        |eexists; split; [apply char_lex; [exact G|cbn; tauto|exact LO]|reflexivity]]|]). destruct I.
  - destruct (fresh_token d w F) as (WT & _). exists NEW_ID. split; [|reflexivity]. destruct F as (I & NK & _). apply name_lex; auto.
  - exists STL_TEST_ID. split; [|reflexivity]. apply name_lex; auto. unfold word_token. apply symbol_keywords in NK. rewrite NK, NF, NP, NS.
    apply in_names_in in NT. rewrite NT. reflexivity.
  - exists STRING. split; [apply text_lex; auto|reflexivity].
Qed.

Lemma lex_ends : forall s, ends s -> exists kk v r, yylex d s = (kk, v, r) /\ yytranslate kk = 0.
Proof.
  intros s [G|(g & c & r & G & -> & C)]; [do 3 eexists; split; [apply lex_end; exact G|reflexivity]|].
  assert (X : implb (Nat.eqb (nat_of_ascii c) 0 || Nat.leb 128 (nat_of_ascii c))
    (negb (is_blank c) && negb (code c =? 35) && negb (is_alpha c) && negb (is_digit c || one_of "+-." c) && negb (code c =? 34) && (yytranslate (char_token c) =? 0)
     && forallb (fun w => match w with String c' _ => negb (Ascii.eqb c c') | EmptyString => false end) symbol_texts) = true) by every c.
  replace (Nat.eqb (nat_of_ascii c) 0 || Nat.leb 128 (nat_of_ascii c)) with true in X
    by (symmetry; apply orb_true_iff; rewrite Nat.eqb_eq, Nat.leb_le; exact C).
  cbn [implb] in X. rewrite !andb_true_iff, !negb_true_iff in X. destruct X as ((((((X1 & X2) & X3) & X4) & X5) & X6) & X7).
  rewrite lex_other by auto. rewrite number_other, X5 by exact X4.
  destruct (symbol symbols (String c r)) as [[k r']|] eqn:E.
  - exfalso. destruct (symbol_split _ _ _ _ symbols_sorted E) as (w & IW & E' & _). apply symbols_texts in IW. rewrite forallb_forall in X7. specialize (X7 _ IW).
    destruct w as [|c' w]; [discriminate|]. cbn [append] in E'. injection E' as <- _. rewrite Ascii.eqb_refl in X7. discriminate.
  - do 3 eexists. split; [reflexivity|]. apply Z.eqb_eq. exact X6.
Qed.
End Read.
