(** Reading the tokens of a text. *)
From Coq Require Import List Bool String Ascii ZArith Lia.
From Verif Require Import Num Base Signal Robust Transducer TreeProof Driver Tables Parser Automaton ParserProof ParserSpec ParserTotal PrecProof.
Import ListNotations.
Local Open Scope string_scope.
Local Open Scope Z_scope.

Ltac every c := destruct c as [[|] [|] [|] [|] [|] [|] [|] [|]]; vm_compute; reflexivity.
Lemma alpha_letter : forall c, is_alpha c = letter c. Proof. intro c. every c. Qed.
Lemma digit_digit : forall c, is_digit c = digit c. Proof. intro c. every c. Qed.
Lemma word_wordly : forall c, is_word c = wordly c. Proof. intro c. every c. Qed.
Lemma blank_blank : forall c, is_blank c = blank c. Proof. intro c. every c. Qed.
Lemma newline_code : forall c, (code c =? 10) = Ascii.eqb c newline_char. Proof. intro c. every c. Qed.

Lemma span_all : forall p s r, all p s -> match r with String c _ => p c = false | EmptyString => True end ->
  span p (s ++ r) = (s, r).
Proof.
  intros p s r. unfold all. induction s as [|c s IH]; cbn [list_ascii_of_string forallb append]; intros A B.
  - destruct r as [|c r]; cbn [span]; [reflexivity|]. now rewrite B.
  - apply andb_prop in A. destruct A as [A1 A2]. cbn [span]. rewrite A1, (IH A2 B). reflexivity.
Qed.
Lemma all_ext : forall p q s, (forall c, p c = q c) -> all p s -> all q s.
Proof. intros p q s E. unfold all. induction (list_ascii_of_string s); cbn; auto. rewrite E. destruct (q a); cbn; auto. Qed.

Lemma skip_comment : forall l g o, all (fun c => negb (Ascii.eqb c newline_char)) l ->
  skip (Some o) (l ++ String newline_char g) = skip None g.
Proof.
  intros l g o. unfold all. induction l as [|c l IH]; cbn [list_ascii_of_string forallb append]; intro A.
  - cbn [skip]. change (code newline_char =? 10) with true. reflexivity.
  - apply andb_prop in A. destruct A as [A1 A2]. cbn [skip]. rewrite newline_code. apply negb_true_iff in A1. rewrite A1. auto.
Qed.
Lemma append_assoc : forall a b c : string, (a ++ b) ++ c = a ++ (b ++ c).
Proof. induction a; cbn; intros; auto. now rewrite IHa. Qed.
Lemma append_nil : forall a : string, a ++ "" = a.
Proof. induction a; cbn; auto. now rewrite IHa. Qed.
Lemma skip_gap : forall g s, gap g -> skip None (g ++ s) = skip None s.
Proof.
  intros g s G. induction G as [|c g B G IH|l g A G IH]; cbn [append]; auto.
  - cbn [skip]. rewrite blank_blank, B. exact IH.
  - cbn [skip]. change (is_blank "#") with false. change (code "#" =? 35) with true. cbv iota.
    rewrite append_assoc. cbn [append]. rewrite skip_comment by auto. exact IH.
Qed.
Lemma skip_stop : forall c s, is_blank c = false -> (code c =? 35) = false -> skip None (String c s) = String c s.
Proof. intros c s A B. cbn [skip]. now rewrite A, B. Qed.

Lemma symbol_keywords : forall w, find w reserved = None <-> ~ In w keywords.
Proof.
  assert (E : keywords = map fst reserved) by reflexivity. intro w. rewrite E. generalize reserved as m. induction m as [|[k v] m IH].
  - cbn. tauto.
  - cbn [find map fst In]. destruct (String.eqb_spec w k).
    + split; [discriminate|]. intro H. elim H. auto.
    + rewrite IH. intuition congruence.
Qed.

Section Lex.
Context {T : Type} {N : Num T}.
Variable s_to_d : string -> option T.
Variable d : parsed (T := T).
Notation spelling := (spelling (fst d)).
Notation text := (text (fst d)).
Notation fresh := (fresh (fst d) (snd d)).

Lemma lex_gap : forall g s, gap g -> yylex d (g ++ s) = yylex d s.
Proof. intros g s G. unfold yylex. now rewrite skip_gap. Qed.
Lemma lex_end : forall g, gap g -> yylex d g = (0, VNone, "").
Proof. intros g G. rewrite <- (append_nil g), lex_gap by auto. reflexivity. Qed.

Lemma letter_stops : forall c, letter c = true -> is_blank c = false /\ (code c =? 35) = false.
Proof.
  intros c L. assert (H : implb (letter c) (negb (is_blank c) && negb (code c =? 35)) = true) by every c.
  rewrite L in H. cbn [implb] in H. apply andb_prop in H. rewrite !negb_true_iff in H. exact H.
Qed.

(** Words. *)
Lemma lex_word : forall g w r, gap g -> identifier w -> (match r with String c _ => wordly c = false | EmptyString => True end) ->
  yylex d (g ++ w ++ r) = (word_token d w, match find w reserved with Some _ => VNone | None => VStr w end, r).
Proof.
  intros g w r G (c & w' & -> & L & A) F. rewrite lex_gap by auto. unfold yylex.
  destruct (letter_stops c L) as (S1 & S2). cbn [append]. rewrite skip_stop by auto. rewrite alpha_letter, L.
  change (String c (w' ++ r)) with (String c w' ++ r). rewrite (span_all is_word (String c w') r).
  - reflexivity.
  - unfold all. cbn [list_ascii_of_string forallb]. rewrite word_wordly. unfold wordly at 1. rewrite L. cbn [orb andb].
    eapply all_ext; [|exact A]. intro; symmetry; apply word_wordly.
  - destruct r; auto. now rewrite word_wordly.
Qed.

(** Numbers. *)
Lemma unsigned_text : forall u r, magnitude_text u -> (match r with String c _ => wordly c || one_of "." c = false | EmptyString => True end) ->
  unsigned (u ++ r) = Some (u, r).
Proof.
  assert (D : forall c, wordly c || one_of "." c = false -> is_digit c = false /\ (code c =? 46) = false).
  { intros c L. assert (H : implb (negb (wordly c || one_of "." c)) (negb (is_digit c) && negb (code c =? 46)) = true) by every c.
    rewrite L in H. cbn [implb negb] in H. apply andb_prop in H. rewrite !negb_true_iff in H. exact H. }
  assert (AD : forall s, all digit s -> all is_digit s) by (intros; eapply all_ext; [|eassumption]; intro; symmetry; apply digit_digit).
  intros u r [a NE A|a f A F] B; unfold unsigned.
  - rewrite (span_all is_digit a r); [|auto|destruct r; auto; now apply D].
    destruct r as [|c r].
    + destruct (String.eqb_spec a ""); congruence.
    + rewrite (proj2 (D c B)). destruct (String.eqb_spec a ""); congruence.
  - rewrite !append_assoc. rewrite (span_all is_digit a); [|auto|vm_compute; reflexivity]. cbn [append].
    change (code "." =? 46) with true. cbv iota.
    rewrite (span_all is_digit f r); [reflexivity|auto|destruct r; auto; now apply D].
Qed.
Lemma magnitude_starts : forall u, magnitude_text u -> exists c r, u = String c r /\ (digit c || one_of "." c = true).
Proof.
  intros u [a NE A|a f A F].
  - destruct a as [|c a]; [congruence|]. exists c, a. split; auto. unfold all in A. cbn [list_ascii_of_string forallb] in A. apply andb_prop in A. destruct A as [A _].
    rewrite A. reflexivity.
  - destruct a as [|c a]; [exists "."%char, f; auto|]. exists c, (a ++ "." ++ f)%string. split; auto.
    unfold all in A. cbn [list_ascii_of_string forallb] in A. apply andb_prop in A. destruct A as [A _]. rewrite A. reflexivity.
Qed.
Lemma lex_number : forall g w r, gap g -> numeral w -> (match r with String c _ => wordly c || one_of "." c = false | EmptyString => True end) ->
  yylex d (g ++ w ++ r) = (CONSTANT, VStr w, r).
Proof.
  intros g w r G NU B. rewrite lex_gap by auto. unfold yylex.
  assert (NB : number (w ++ r) = Some (w, r) /\ exists c w', w = String c w' /\ is_blank c = false /\ (code c =? 35) = false /\ is_alpha c = false).
  { destruct NU as [M|(u & M & [->| ->])].
    - destruct (magnitude_starts w M) as (c & w' & -> & S). split.
      + assert (H : implb (digit c || one_of "." c) (negb ((code c =? 43) || (code c =? 45))) = true) by every c.
        rewrite S in H. cbn [implb] in H. apply negb_true_iff in H.
        rewrite <- (unsigned_text _ r M B). cbn [append number]. rewrite H. reflexivity.
      + exists c, w'. split; auto.
        assert (H : implb (digit c || one_of "." c) (negb (is_blank c) && negb (code c =? 35) && negb (is_alpha c)) = true) by every c.
        rewrite S in H. cbn [implb] in H. rewrite !andb_true_iff, !negb_true_iff in H. tauto.
    - split; [|exists "+"%char, u; auto]. cbn [append number]. change ((code "+" =? 43) || (code "+" =? 45)) with true. cbv iota.
      rewrite (unsigned_text u r M B). reflexivity.
    - split; [|exists "-"%char, u; auto]. cbn [append number]. change ((code "-" =? 43) || (code "-" =? 45)) with true. cbv iota.
      rewrite (unsigned_text u r M B). reflexivity. }
  destruct NB as (NB & c & w' & -> & S1 & S2 & S3). cbn [append] in *. rewrite skip_stop by auto. rewrite S3, NB. reflexivity.
Qed.

(** Symbols. *)
Definition is_symbol (w : string) : bool := match w with String c _ => negb (letter c) | EmptyString => false end.

Ltac known := repeat match goal with |- context [Ascii.eqb ?a ?b] =>
  let v := eval vm_compute in (Ascii.eqb a b) in
  match v with true => change (Ascii.eqb a b) with true | false => change (Ascii.eqb a b) with false end end.

Lemma eqb_flip : forall a b, Ascii.eqb a b = Ascii.eqb b a.
Proof. intros a b. destruct (Ascii.eqb_spec a b), (Ascii.eqb_spec b a); congruence. Qed.

Lemma number_sign : forall b r, match r with String c _ => one_of ".0123456789" c = false | EmptyString => True end ->
  b = "+"%char \/ b = "-"%char -> number (String b r) = None.
Proof.
  intros b r F B. assert (E : number (String b r) = match unsigned r with Some (a, q) => Some (String b a, q) | None => None end)
    by (destruct B; subst; reflexivity).
  rewrite E. replace (unsigned r) with (@None (string * string)); auto. unfold unsigned. destruct r as [|c r]; [reflexivity|].
  assert (H : implb (negb (one_of ".0123456789" c)) (negb (is_digit c) && negb (code c =? 46)) = true) by every c.
  rewrite F in H. cbn [implb negb] in H. apply andb_prop in H. rewrite !negb_true_iff in H. destruct H as [H1 H2].
  cbn [span]. rewrite H1, H2. reflexivity.
Qed.

Lemma number_other : forall c r, (is_digit c || one_of "+-." c) = false -> number (String c r) = None.
Proof.
  intros c r F.
  assert (H : implb (negb (is_digit c || one_of "+-." c)) (negb (is_digit c) && negb (code c =? 46) && negb (code c =? 43) && negb (code c =? 45)) = true) by every c.
  rewrite F in H. cbn [implb negb] in H. rewrite !andb_true_iff, !negb_true_iff in H. destruct H as [[[H1 H2] H3] H4].
  unfold number. rewrite H3, H4. cbn [orb]. unfold unsigned. cbn [span]. rewrite H1, H2. reflexivity.
Qed.

Lemma lex_symbol : forall g w k r, gap g -> In (w, k) symbols -> follows w r -> yylex d (g ++ w ++ r) = (k, VNone, r).
Proof.
  intros g w k r G IN F. rewrite lex_gap by auto. unfold symbols in IN. cbn [In] in IN.
  repeat match type of IN with _ \/ _ => destruct IN as [IN|IN]; [assert (w = fst (w, k)) by reflexivity; assert (k = snd (w, k)) by reflexivity; rewrite <- IN in *; cbn [fst snd] in *; subst w; subst k; clear IN|] | False => destruct IN end.
  all: unfold yylex; cbn [append]; rewrite skip_stop by reflexivity;
    match goal with |- context [is_alpha ?c] => change (is_alpha c) with false end; cbv iota;
    first [rewrite number_other by reflexivity
          |rewrite number_sign; [|destruct r; auto; first [exact F|revert F; clear; unfold follows, glues; cbn [String.eqb]; unfold one_of; cbn [list_ascii_of_string existsb]; rewrite !orb_false_iff; tauto]|auto]
          |idtac].
  all: try (unfold symbols; cbn [symbol strip]; known; cbv iota; reflexivity).
  all: destruct r as [|c r]; [vm_compute; reflexivity|].
  all: cbn [follows] in F; unfold glues in F;
    repeat match type of F with context [String.eqb ?a ?b] => let v := eval vm_compute in (String.eqb a b) in change (String.eqb a b) with v in F end;
    cbv iota in F; unfold one_of in F; cbn [list_ascii_of_string existsb orb] in F; rewrite ?orb_false_iff in F.
  all: try (rewrite number_sign; [|unfold one_of; cbn [list_ascii_of_string existsb]; rewrite !orb_false_iff; tauto|auto]).
  all: unfold symbols; cbn [symbol strip]; rewrite ?(eqb_flip _ c); known; cbv iota;
    repeat match goal with |- context [Ascii.eqb ?x ?b] => is_var x; replace (Ascii.eqb x b) with false by (symmetry; tauto) end; cbv iota; reflexivity.
Qed.

(** ** Every token of the grammar *)
Lemma starts_glues : forall b u c, letter b || digit b || one_of "." b = true -> glues (String b u) c = wordly c || one_of "." c.
Proof.
  intros b u c D.
  assert (X : implb (letter b || digit b || one_of "." b)
     (negb (Ascii.eqb b "<") && negb (Ascii.eqb b ">") && negb (Ascii.eqb b "[") && negb (Ascii.eqb b "+") && negb (Ascii.eqb b "-")
      && (letter b || digit b || one_of "+-." b)) = true) by every b.
  rewrite D in X. cbn [implb] in X. rewrite !andb_true_iff, !negb_true_iff in X. destruct X as [[[[[X1 X2] X3] X4] X5] X6].
  unfold glues. cbn [String.eqb]. rewrite X1, X2, X3, X4, X5. cbn [orb]. now rewrite X6.
Qed.
Lemma identifier_glues : forall w, identifier w -> forall c, glues w c = wordly c || one_of "." c.
Proof. intros w (a & r & -> & L & _) c. apply starts_glues. rewrite L. reflexivity. Qed.
Lemma numeral_glues : forall w, numeral w -> forall c, glues w c = wordly c || one_of "." c.
Proof.
  intros w [M|(u & M & E)] c.
  - destruct (magnitude_starts w M) as (b & u & -> & D). apply starts_glues. rewrite <- orb_assoc, D. apply orb_true_r.
  - destruct (magnitude_starts u M) as (b & u' & -> & D). destruct E; subst; reflexivity.
Qed.

Lemma follows_word : forall w r, (forall c, glues w c = wordly c || one_of "." c) -> follows w r ->
  match r with String c _ => wordly c || one_of "." c = false | EmptyString => True end.
Proof. intros w r E F. destruct r; auto. cbn in F. now rewrite E in F. Qed.

Lemma lex_token : forall g k w r, gap g -> spelling k w -> follows w r ->
  exists kk, yylex d (g ++ w ++ r) = (kk, val k, r) /\ yytranslate kk = num k.
Proof.
  assert (WORDLY : forall r, match r with String c _ => wordly c || one_of "." c = false | EmptyString => True end ->
     match r with String c _ => wordly c = false | EmptyString => True end).
  { intros [|c r]; auto. rewrite orb_false_iff. tauto. }
  intros g k w r G SP F. destruct SP as [k w IN|w NU|w ID NK FW|w ID NK FW PW|w ID NK FW PW SW].
  - unfold fixed in IN. cbn [In] in IN.
    repeat match type of IN with _ \/ _ => destruct IN as [IN|IN]; [assert (k = fst (k, w)) by reflexivity; assert (w = snd (k, w)) by reflexivity; rewrite <- IN in *; cbn [fst snd] in *; subst w; subst k; clear IN|] | False => destruct IN end.
    all: first
      [ eexists; split; [eapply lex_symbol; [exact G| |exact F]; unfold symbols; cbn [In]; repeat (first [left; reflexivity|right])|vm_compute; reflexivity]
      | eexists; split; [rewrite lex_word; [vm_compute; reflexivity|exact G|do 2 eexists; split; [reflexivity|split; vm_compute; reflexivity]|]|vm_compute; reflexivity];
        apply WORDLY; eapply follows_word; [|exact F]; apply identifier_glues; do 2 eexists; split; [reflexivity|split; vm_compute; reflexivity] ].
  - eexists; split; [rewrite lex_number; [reflexivity|auto|auto|]|vm_compute; reflexivity].
    eapply follows_word; [|exact F]. now apply numeral_glues.
  - eexists; split; [rewrite lex_word; [|auto|auto|apply WORDLY; eapply follows_word; [|exact F]; now apply identifier_glues]|].
    + apply symbol_keywords in NK. rewrite NK. reflexivity.
    + apply symbol_keywords in NK. unfold word_token. rewrite NK. destruct (find w (d_formulas (fst d))); [reflexivity|congruence].
  - eexists; split; [rewrite lex_word; [|auto|auto|apply WORDLY; eapply follows_word; [|exact F]; now apply identifier_glues]|].
    + apply symbol_keywords in NK. rewrite NK. reflexivity.
    + apply symbol_keywords in NK. unfold word_token. rewrite NK, FW. destruct (find w (d_params (fst d))); [reflexivity|congruence].
  - eexists; split; [rewrite lex_word; [|auto|auto|apply WORDLY; eapply follows_word; [|exact F]; now apply identifier_glues]|].
    + apply symbol_keywords in NK. rewrite NK. reflexivity.
    + apply symbol_keywords in NK. unfold word_token. rewrite NK, FW, PW. destruct (find w (d_signals (fst d))); [reflexivity|congruence].
Qed.

Lemma text_reads : forall ts s, text ts s -> reads d None s (map enc ts ++ [(0, VNone)]) "".
Proof.
  induction 1 as [g G|g k w ts r G SP X IH F].
  - cbn [map app]. change 0 with (yytranslate 0). econstructor; [now apply lex_end|constructor].
  - cbn [map app]. destruct (lex_token g k w r G SP F) as (kk & L & E). unfold enc. rewrite <- E. econstructor; eauto.
Qed.

Lemma steps_loop : forall c c', steps s_to_d c c' -> forall k r, parse_loop s_to_d k c' = Ok r -> exists k', parse_loop s_to_d k' c = Ok r.
Proof.
  induction 1 as [c|c c1 c2 P ST IH]; intros k r H; [eauto|]. destruct (IH k r H) as (k' & E). exists (S k'). cbn [parse_loop].
  rewrite P. exact E.
Qed.

(** ** A definition *)
Lemma gap_glues : forall w g r, gap g -> glues w " " = false -> glues w tab_char = false -> glues w return_char = false ->
  glues w newline_char = false -> glues w "#" = false -> follows w r -> follows w (g ++ r).
Proof.
  intros w g r G A B C D E F. destruct G as [|c g BL G|l g AL G]; auto; cbn [append follows]; auto.
  assert (X : c = " "%char \/ c = tab_char \/ c = return_char \/ c = newline_char).
  { clear - BL. unfold blank, one_of in BL. cbn [list_ascii_of_string existsb] in BL. rewrite !orb_true_iff, !Ascii.eqb_eq in BL. intuition congruence. }
  destruct X as [->|[->|[->| ->]]]; auto.
Qed.
Lemma fresh_token : forall x, fresh x -> word_token d x = NEW_ID /\ find x reserved = None.
Proof.
  intros x (ID & NK & F & P & S & NT). apply symbol_keywords in NK. split; auto. unfold word_token. rewrite NK, F, P, S.
  replace (in_names x (snd d)) with false; auto. symmetry. unfold in_names. apply not_true_iff_false. intro H. apply existsb_exists in H.
  destruct H as (y & I & E). apply String.eqb_eq in E. subst. auto.
Qed.

Notation formula := (formula s_to_d (column d) (meaning d) actual).
Theorem define_formula : forall x ts f p q g g' s, fresh x -> formula ts f p q -> gap g -> gap g' -> text ts s ->
  exists t, skel t = f /\
    parse s_to_d d (g ++ x ++ g' ++ ":=" ++ s) =
      Ok (true, (d_with_formulas (fst d) (assign x t (d_formulas (fst d))), snd d)).
Proof.
  intros x ts f p q g g' s FR FO G G' TX.
  destruct (fresh_token x FR) as (WT & NR).
  set (input := (g ++ x ++ g' ++ ":=" ++ s)%string).
  assert (R : reads d None input ((33, VStr x) :: (19, VNone) :: map enc ts ++ [(0, VNone)]) "").
  { change 33 with (yytranslate NEW_ID). eapply reads_lex.
    - unfold input. rewrite lex_word; [rewrite WT, NR; reflexivity|exact G|apply FR|].
      destruct FR as (ID & _). destruct G' as [|c g' BL G'|]; cbn [append]; auto.
      assert (X : implb (blank c) (negb (wordly c)) = true) by every c. rewrite BL in X. cbn [implb] in X. now apply negb_true_iff in X.
    - change 19 with (yytranslate ASSIGN). eapply reads_lex.
      + apply lex_symbol; [exact G'|unfold symbols; cbn [In]; repeat (first [left; reflexivity|right])|destruct s; [exact Logic.I|reflexivity]].
      + apply text_reads. exact TX. }
  assert (GO : exists c', steps s_to_d (mkC [(0, VNone)] None input d) c' /\
     exists t, skel t = f /\ at_ d c' [(48, VTree t); (20, VNone); (4, VStr x); (0, VNone)] [(0, VNone)] "").
  { assert (A : at_ d (mkC [(0, VNone)] None input d) [(0, VNone)] ((33, VStr x) :: (19, VNone) :: map enc ts ++ [(0, VNone)]) "")
      by (repeat split; exact R).
    eapply go_shift; [exact A|vm_compute; reflexivity|vm_compute; reflexivity|]. clear A R. intros c1 A.
    eapply go_shift; [exact A|vm_compute; reflexivity|vm_compute; reflexivity|]. clear A c1. intros c1 A.
    eapply go_reaches; [eapply formula_run; [exact FO| | | | |exact A]; [cbn; tauto|eapply formula_top; eauto|unfold plain_token; cbn; intuition discriminate|cbn; lia]|].
    intros c2 t F A2. exists c2. split; [constructor|]. exists t. split; auto. }
  destruct GO as (c' & ST & t & F & (A1 & A2 & A3)). exists t. split; auto.
  set (d' := (d_with_formulas (fst d) (assign x t (d_formulas (fst d))), snd d)).
  assert (P1 : exists r', pstep s_to_d c' = Ok (Next (mkC [(5, VNone); (0, VNone)] (Some (0, VNone)) r' d'))).
  { assert (E : exists rest', (match c_la c' with
            | Some (tok, v0) => (tok, v0, c_in c')
            | None => let '(k, v0, r) := yylex (c_d c') (c_in c') in (yytranslate k, v0, r) end) = (0, VNone, rest')).
    { rewrite A2. inversion A3; subst; [eauto|].
      match goal with Y : yylex _ _ = _ |- _ => rewrite Y end. eauto. }
    destruct E as (rest' & E). exists rest'. unfold pstep. rewrite A1. change (48 =? yyfinal) with false. cbv iota.
    change (blind 48) with (Ok false). cbn [bind]. rewrite E. change (decide 48 0) with (Ok (Reduce 33)). cbn [bind]. rewrite A2.
    unfold reduce. change (tab yyr2 33) with (Ok 3). change (tab yyr1 33) with (Ok 54). cbn [bind c_stack c_d c_la c_in].
    change (Z.to_nat 3) with 3%nat. cbn [skipn firstn map snd rev app]. change (lr_goto 0 54) with (Ok 5). cbn [bind act]. reflexivity. }
  destruct P1 as (r' & P1).
  assert (L3 : parse_loop s_to_d 3 (mkC [(5, VNone); (0, VNone)] (Some (0, VNone)) r' d') = Ok (true, d')) by reflexivity.
  destruct (steps_loop _ _ ST 4%nat (true, d')) as (k & E); [cbn [parse_loop] in *; rewrite P1; exact L3|].
  eapply parse_settled. exact E.
Qed.

(** A text that starts with the name of a formula is rejected. *)
Theorem redefinition : forall g x r, gap g -> identifier x -> (match r with String c _ => wordly c = false | EmptyString => True end) ->
  ~ In x keywords -> find x (d_formulas (fst d)) <> None -> parse s_to_d d (g ++ x ++ r) = Ok (false, d).
Proof.
  intros g x r G ID R NK FX. apply symbol_keywords in NK.
  assert (W : word_token d x = PHI_ID). { unfold word_token. rewrite NK. destruct (find x (d_formulas (fst d))); congruence. }
  assert (L := lex_word g x r G ID R). rewrite NK, W in L. apply parse_settled with (k := 1%nat).
  unfold parse_string. cbn [parse_loop]. unfold pstep. cbn [c_stack c_la c_in c_d]. rewrite L. reflexivity.
Qed.
End Lex.
