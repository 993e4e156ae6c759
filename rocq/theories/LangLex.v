(** What the scanner delivers is the next word of the text. *)
From Coq Require Import List Bool String Ascii ZArith Lia.
From Verif Require Import Num Base Signal Robust Transducer TreeProof Driver Tables Parser Automaton ParserProof ParserSpec ParserTotal PrecProof LexProof LangSpec.
Import ListNotations.
Local Open Scope string_scope.
Local Open Scope Z_scope.

Lemma span_split : forall p s a b, span p s = (a, b) -> s = a ++ b /\ all p a /\ match b with String c _ => p c = false | EmptyString => True end.
Proof.
  intros p s. induction s as [|c s IH]; cbn [span]; intros a b H.
  - injection H as <- <-. repeat split.
  - destruct (p c) eqn:P.
    + destruct (span p s) as [a' b']. injection H as <- <-. destruct (IH a' b' eq_refl) as (-> & A & B). repeat split; auto.
      unfold all in *. cbn [list_ascii_of_string forallb]. now rewrite P, A.
    + injection H as <- <-. repeat split; auto.
Qed.
(** No longer prefix satisfies the condition. *)
Lemma span_longest : forall p a b u r, (match b with String c _ => p c = false | EmptyString => True end) ->
  a ++ b = u ++ r -> all p u -> (String.length u <= String.length a)%nat.
Proof.
  intros p a. induction a as [|c a IH]; cbn [append]; intros b u r B E A.
  - destruct u as [|c u]; cbn [String.length]; [lia|]. cbn [append] in E. subst b. unfold all in A. cbn [list_ascii_of_string forallb] in A.
    rewrite B in A. discriminate.
  - destruct u as [|c' u]; cbn [String.length]; [lia|]. cbn [append] in E. injection E as -> E.
    unfold all in A. cbn [list_ascii_of_string forallb] in A. apply andb_prop in A. destruct A as [_ A]. specialize (IH b u r B E A). lia.
Qed.

Lemma skip_split : forall s, exists g, gap g /\ s = g ++ skip None s.
Proof.
  assert (H : forall n s, (String.length s <= n)%nat ->
    (exists g, gap g /\ s = g ++ skip None s) /\
    (forall o, (exists g l, all (fun c => negb (Ascii.eqb c newline_char)) l /\ gap g /\ s = l ++ String newline_char g ++ skip (Some o) s) \/ skip (Some o) s = o)).
  { induction n as [|n IH]; intros s L; (destruct s as [|c s]; [split; [exists ""; split; [constructor|reflexivity]|intro o; right; reflexivity]|]); cbn [String.length] in L; [lia|].
    assert (L' : (String.length s <= n)%nat) by lia. destruct (IH s L') as [(g & G & E) C]. split.
    - cbn [skip]. destruct (is_blank c) eqn:B.
      + exists (String c g). split; [constructor; auto; now rewrite <- blank_blank|]. cbn [append]. now rewrite <- E.
      + destruct (code c =? 35) eqn:K; [|exists ""; split; [constructor|reflexivity]].
        assert (c = "#"%char) as ->.
        { apply Z.eqb_eq in K. unfold code in K. rewrite <- (ascii_nat_embedding c). replace (nat_of_ascii c) with 35%nat by lia. reflexivity. }
        destruct (C (String "#" s)) as [(g' & l & A & G' & E')|E'].
        * exists ("#" ++ l ++ String newline_char g'). split; [apply (G_comment l g' A G')|]. cbn [append]. rewrite append_assoc. cbn [append]. change (String newline_char (g' ++ skip (Some (String "#" s)) s)) with (String newline_char g' ++ skip (Some (String "#" s)) s); now rewrite <- E'.
        * rewrite E'. exists "". split; [constructor|reflexivity].
    - intro o. cbn [skip]. rewrite newline_code. destruct (Ascii.eqb_spec c newline_char) as [->|NE].
      + left. exists g, "". repeat split; auto. cbn [append]. now rewrite <- E.
      + destruct (C o) as [(g' & l & A & G' & E')|E']; [|auto]. left. exists g', (String c l). repeat split; auto.
        * unfold all. cbn [list_ascii_of_string forallb]. destruct (Ascii.eqb_spec c newline_char); [congruence|exact A].
        * cbn [append] in E' |- *. now rewrite <- E'. }
  intro s. apply (H (String.length s) s). lia.
Qed.

(** ** Numbers *)
Lemma all_digit : forall s, all is_digit s <-> all digit s.
Proof. intro s. split; intro H; (eapply all_ext; [|exact H]); intro; rewrite digit_digit; reflexivity. Qed.
Lemma code_char : forall c n, code c = Z.of_nat n -> c = ascii_of_nat n.
Proof. intros c n H. unfold code in H. rewrite <- (ascii_nat_embedding c). f_equal. lia. Qed.
Lemma all_app : forall p a b, all p (a ++ b) <-> all p a /\ all p b.
Proof.
  intros p a b. unfold all. induction a as [|c a IH]; cbn [append list_ascii_of_string forallb]; [tauto|].
  rewrite !andb_true_iff, IH. tauto.
Qed.
Lemma length_app : forall a b, String.length (a ++ b) = (String.length a + String.length b)%nat.
Proof. induction a; intro b; cbn; auto. Qed.
Lemma app_inv : forall a b c : string, a ++ b = a ++ c -> b = c.
Proof. induction a; cbn; intros b c H; auto. injection H as H. auto. Qed.

Lemma unsigned_split : forall s n r, unsigned s = Some (n, r) -> s = n ++ r /\ magnitude_text n /\
  forall u r', n ++ r = u ++ r' -> magnitude_text u -> (String.length u <= String.length n)%nat.
Proof.
  intros s n r H. unfold unsigned in H. destruct (span is_digit s) as [a b] eqn:S. destruct (span_split _ _ _ _ S) as (-> & A & B).
  assert (INT : b = r -> a = n -> a <> "" -> match b with String c _ => code c <> 46 | EmptyString => True end ->
    a ++ b = n ++ r /\ magnitude_text n /\ forall u r', n ++ r = u ++ r' -> magnitude_text u -> (String.length u <= String.length n)%nat).
  { intros <- <- NE D. repeat split; auto; [constructor; auto; now apply all_digit|].
    intros u r' E M. destruct M as [u NU AU|x f AX AF].
    - eapply span_longest; [exact B|exact E|now apply all_digit].
    - exfalso. rewrite append_assoc in E. assert (L1 := span_longest _ _ _ _ _ B E (proj2 (all_digit _) AX)).
      clear - A B D E L1. revert x L1 E. induction a as [|c a IH]; intros x L1 E.
      + destruct x; [|cbn in L1; lia]. cbn in E. subst b. apply D. reflexivity.
      + destruct x as [|c' x]; cbn [append] in E.
        * injection E as -> _. unfold all in A. cbn in A. discriminate.
        * injection E as _ E. unfold all in A. cbn [list_ascii_of_string forallb] in A. apply andb_prop in A. destruct A as [_ A].
          eapply (IH A x); [cbn in L1; lia|exact E]. }
  destruct b as [|c b'].
  - destruct (String.eqb_spec a ""); [discriminate|]. injection H as <- <-. apply INT; auto.
  - destruct (code c =? 46) eqn:K.
    + destruct (span is_digit b') as [f r0] eqn:S'. injection H as <- <-. destruct (span_split _ _ _ _ S') as (-> & F & B').
      apply Z.eqb_eq, (code_char c 46) in K. change (ascii_of_nat 46) with "."%char in K. subst c.
      repeat split; [now rewrite append_assoc|apply M_frac; now apply all_digit|].
      intros u r' E M. rewrite append_assoc in E. cbn [append] in E. rewrite length_app. cbn [String.length].
      destruct M as [u NU AU|x g AX AG].
      * assert (L1 := span_longest is_digit _ (String "." (f ++ r0)) _ _ B E (proj2 (all_digit _) AU)). lia.
      * rewrite append_assoc in E. assert (L1 := span_longest is_digit _ (String "." (f ++ r0)) _ _ B E (proj2 (all_digit _) AX)).
        assert (EX : x = a).
        { clear - A L1 E. revert x L1 E. induction a as [|c a IH]; intros x L1 E.
          - destruct x; [reflexivity|cbn in L1; lia].
          - unfold all in A. cbn [list_ascii_of_string forallb] in A. apply andb_prop in A. destruct A as [A0 A].
            destruct x as [|c' x]; cbn [append] in E.
            + injection E as -> _. discriminate A0.
            + injection E as -> E. f_equal. eapply (IH A); [cbn in L1; lia|exact E]. }
        subst x. apply app_inv in E. cbn [append] in E. injection E as E. assert (L2 := span_longest is_digit _ _ _ _ B' E (proj2 (all_digit _) AG)).
        rewrite length_app. cbn [String.length append]. lia.
    + destruct (String.eqb_spec a ""); [discriminate|]. injection H as <- <-. apply INT; auto. now apply Z.eqb_neq.
Qed.
Lemma unsigned_none : forall u r, magnitude_text u -> unsigned (u ++ r) <> None.
Proof.
  intros u r M. unfold unsigned. destruct (span is_digit (u ++ r)) as [a b] eqn:S. destruct (span_split _ _ _ _ S) as (E & A & B).
  destruct M as [u NU AU|x f AX AF].
  - assert (L1 := span_longest _ _ _ _ _ B (eq_sym E) (proj2 (all_digit _) AU)).
    assert (a <> "") by (intros ->; destruct u; [congruence|cbn in L1; lia]).
    destruct b; [destruct (String.eqb_spec a ""); congruence|]. destruct (code a0 =? 46); [destruct (span is_digit b); discriminate|].
    destruct (String.eqb_spec a ""); congruence.
  - rewrite append_assoc in E. assert (L1 := span_longest _ _ _ _ _ B (eq_sym E) (proj2 (all_digit _) AX)).
    assert (EX : exists b', b = String "." b').
    { clear - A L1 E. revert x L1 E. induction a as [|c a IH]; intros x L1 E.
      - destruct x; [|cbn in L1; lia]. cbn in E. eauto.
      - unfold all in A. cbn [list_ascii_of_string forallb] in A. apply andb_prop in A. destruct A as [A0 A].
        destruct x as [|c' x]; cbn [append] in E.
        + injection E as <- _. discriminate A0.
        + injection E as -> E. eapply (IH A); [|exact E]. cbn in L1; lia. }
    destruct EX as (b' & ->). change (code "." =? 46) with true. cbv iota. destruct (span is_digit b'). discriminate.
Qed.

Definition sign (c : ascii) : bool := (code c =? 43) || (code c =? 45).
Lemma sign_cases : forall c, sign c = true -> c = "+"%char \/ c = "-"%char.
Proof.
  intros c H. unfold sign in H. apply orb_prop in H. destruct H as [H|H]; apply Z.eqb_eq in H;
    [apply (code_char c 43) in H|apply (code_char c 45) in H]; subst; auto.
Qed.
Lemma magnitude_no_sign : forall u, magnitude_text u -> exists c r, u = String c r /\ sign c = false.
Proof.
  intros u M. destruct (magnitude_starts u M) as (c & r & -> & D). exists c, r. split; auto.
  assert (H : implb (digit c || one_of "." c) (negb (sign c)) = true) by every c. rewrite D in H. now apply negb_true_iff in H.
Qed.

Lemma number_split : forall s n r, number s = Some (n, r) -> s = n ++ r /\ numeral n /\
  forall u r', n ++ r = u ++ r' -> numeral u -> (String.length u <= String.length n)%nat.
Proof.
  intros s n r H. destruct s as [|c s]; [discriminate|]. cbn [number] in H. fold (sign c) in H. destruct (sign c) eqn:SC.
  - destruct (unsigned s) as [[m r0]|] eqn:U; [|discriminate]. injection H as <- <-. destruct (unsigned_split _ _ _ U) as (-> & M & L).
    repeat split; auto.
    + right. exists m. split; auto. destruct (sign_cases c SC); subst; auto.
    + intros u r' E [NU|(m' & M' & EU)].
      * destruct (magnitude_no_sign u NU) as (c' & u' & -> & S'). cbn [append] in E. congruence.
      * assert (E' : exists c', u = String c' m') by (destruct EU; subst; eexists; reflexivity). destruct E' as (c' & ->). cbn [append] in E.
        injection E as -> E. specialize (L _ _ E M'). cbn [String.length]. lia.
  - destruct (unsigned_split _ _ _ H) as (E & M & L). repeat split; auto; [left; auto|]. rewrite <- E.
    intros u r' E' [NU|(m' & M' & EU)].
    + eapply L; [rewrite <- E; exact E'|auto].
    + exfalso. destruct EU; subst u; cbn [append] in E'; injection E' as -> _; discriminate SC.
Qed.
Lemma number_none : forall u r, numeral u -> number (u ++ r) <> None.
Proof.
  intros u r [M|(m & M & EU)].
  - destruct (magnitude_no_sign u M) as (c & u' & -> & S). cbn [append number]. fold (sign c). rewrite S.
    change (String c (u' ++ r)) with (String c u' ++ r). now apply unsigned_none.
  - assert (X := unsigned_none m r M).
    destruct EU; subst u; cbn [append number]; [change ((code "+" =? 43) || (code "+" =? 45)) with true|change ((code "-" =? 43) || (code "-" =? 45)) with true]; cbv iota;
      destruct (unsigned (m ++ r)) as [[? ?]|]; congruence.
Qed.

(** ** Symbols *)
Lemma strip_split : forall p s r, strip p s = Some r <-> s = p ++ r.
Proof.
  induction p as [|c p IH]; intros s r; cbn [strip append].
  - split; [intro H; injection H as ->; auto|intros ->; auto].
  - destruct s as [|c' s]; [split; discriminate|]. destruct (Ascii.eqb_spec c c') as [->|NE].
    + rewrite IH. split; [intros ->; auto|intro H; injection H as ->; auto].
    + split; [discriminate|intro H; injection H as -> _; congruence].
Qed.
(** A symbol that starts with another one comes before it in the list. *)
Fixpoint sorted_symbols (l : list (string * Z)) : bool :=
  match l with
  | [] => true
  | (p, _) :: l' => forallb (fun q => match strip p (fst q) with Some _ => String.eqb p (fst q) | None => true end) l' && sorted_symbols l'
  end.
Lemma prefix_either : forall p r u r', p ++ r = u ++ r' -> (String.length p <= String.length u)%nat -> exists z, u = p ++ z.
Proof.
  induction p as [|c p IH]; intros r u r' E L; [exists u; auto|].
  destruct u as [|c' u]; [cbn in L; lia|]. cbn [append] in E. injection E as -> E. destruct (IH r u r' E) as (z & ->); [cbn in L; lia|]. exists z. auto.
Qed.
Lemma symbol_split : forall l s k r, sorted_symbols l = true -> symbol l s = Some (k, r) -> exists w, In (w, k) l /\ s = w ++ r /\
  forall u k' r', In (u, k') l -> s = u ++ r' -> (String.length u <= String.length w)%nat.
Proof.
  induction l as [|[p k0] l IH]; intros s k r SO H; [discriminate|]. cbn [sorted_symbols] in SO. apply andb_prop in SO. destruct SO as [F SO]. cbn [symbol] in H.
  destruct (strip p s) as [r0|] eqn:ST.
  - injection H as <- <-. apply strip_split in ST. exists p. split; [left; auto|]. split; auto.
    intros u k' r' [E|I] E'; [injection E as <- _; lia|].
    rewrite forallb_forall in F. specialize (F _ I). cbn [fst] in F.
    destruct (Nat.le_gt_cases (String.length u) (String.length p)) as [|GT]; auto.
    assert (LE : (String.length p <= String.length u)%nat) by lia.
    rewrite ST in E'. destruct (prefix_either _ _ _ _ E' LE) as (z & ->).
    rewrite (proj2 (strip_split p (p ++ z) z) eq_refl) in F. apply String.eqb_eq in F. rewrite <- F. lia.
  - destruct (IH s k r SO H) as (w & I & E & L). exists w. split; [right; auto|]. split; auto.
    intros u k' r' [Q|I'] E'; [|eapply L; eauto]. injection Q as <- _. apply strip_split in E'. congruence.
Qed.
Lemma symbols_sorted : sorted_symbols symbols = true.
Proof. vm_compute. reflexivity. Qed.
Lemma symbol_none : forall l s u k r, In (u, k) l -> s = u ++ r -> symbol l s <> None.
Proof.
  induction l as [|[p k0] l IH]; intros s u k r I E; [destruct I|]. cbn [symbol]. destruct (strip p s) as [r0|] eqn:ST; [discriminate|].
  destruct I as [Q|I]; [|eapply IH; eauto]. injection Q as <- _. apply strip_split in E. congruence.
Qed.
Lemma symbol_listed : forall u, In u symbol_texts -> exists k, In (u, k) symbols.
Proof.
  intros u H. cbn [symbol_texts In] in H.
  repeat (destruct H as [<-|H]; [eexists; unfold symbols; cbn [In]; repeat (first [left; reflexivity|right])|]). destruct H.
Qed.

(** ** Texts in quotes *)
Lemma quoted_split : forall n s q r, (String.length s <= n)%nat -> quoted s = Some (q, r) -> quotable q /\ s = q ++ String quote_char r.
Proof.
  induction n as [|n IH]; intros s q r L H; (destruct s as [|c s]; [discriminate|]); cbn [String.length] in L; [lia|]. cbn [quoted] in H.
  destruct (code c =? 34) eqn:K.
  - injection H as <- <-. apply Z.eqb_eq, (code_char c 34) in K. subst c. split; [constructor|reflexivity].
  - destruct (code c =? 92) eqn:K'.
    + destruct s as [|c' s]; [discriminate|]. destruct (code c' =? 10) eqn:K1; [discriminate|].
      destruct (quoted s) as [[a b]|] eqn:Q; [|discriminate]. injection H as <- <-. cbn [String.length] in L. destruct (IH s a b) as (A & ->); [lia|auto|].
      apply Z.eqb_eq, (code_char c 92) in K'. subst c. split; [|reflexivity].
      apply Qt_escape; auto. intros ->. rewrite newline_code, Ascii.eqb_refl in K1. discriminate.
    + destruct (quoted s) as [[a b]|] eqn:Q; [|discriminate]. injection H as <- <-. destruct (IH s a b) as (A & ->); [lia|auto|].
      split; [|reflexivity]. apply Qt_char; auto; intros ->; discriminate.
Qed.
Lemma quoted_longest : forall q, quotable q -> forall r q' r', quotable q' -> q ++ String quote_char r = q' ++ String quote_char r' ->
  (String.length q' <= String.length q)%nat.
Proof.
  induction 1 as [|c s A B Q IH|c s A Q IH]; intros r q' r' Q' E; destruct Q' as [|c' s' A' B' Q'|c' s' A' Q']; cbn [String.length append] in *; try lia;
    injection E as E1 E2; try congruence.
  - specialize (IH _ _ _ Q' E2). lia.
  - assert (H := IH _ _ _ Q' E2). lia.
Qed.
Lemma quoted_some : forall q, quotable q -> forall r, quoted (q ++ String quote_char r) <> None.
Proof.
  induction 1 as [|c s A B Q IH|c s A Q IH]; intro r; cbn [append quoted].
  - change (code quote_char =? 34) with true. discriminate.
  - replace (code c =? 34) with false by (symmetry; apply Z.eqb_neq; intro H; apply (code_char c 34) in H; auto).
    replace (code c =? 92) with false by (symmetry; apply Z.eqb_neq; intro H; apply (code_char c 92) in H; auto).
    specialize (IH r). destruct (quoted (s ++ String quote_char r)) as [[? ?]|]; congruence.
  - change (code backslash =? 34) with false. change (code backslash =? 92) with true. cbv iota.
    rewrite newline_code. destruct (Ascii.eqb_spec c newline_char); [congruence|].
    specialize (IH r). destruct (quoted (s ++ String quote_char r)) as [[? ?]|]; congruence.
Qed.

(** ** Words *)
Section LexWord.
Context {T : Type} {N : Num T}.
Notation parsed := (parsed (T := T)).
Notation sval := (sval (T := T)).

(** The number and the value of a word. *)
Definition wnum (k : word) : Z :=
  match k with
  | W k => num k | KNew _ => 33 | KTestName _ => 35 | KText _ => 36 | KDefine => 19 | KParamWord => 24 | KSignalWord => 25 | KTestWord => 26
  | KTrue => 27 | KFalse => 28 | KColon => 37 | KEqual => 38 | KOpen => 39 | KClose => 40
  end.
Definition wval (k : word) : sval :=
  match k with W k => val k | KNew s | KTestName s | KText s => VStr s | _ => VNone end.

Lemma identifier_first : forall u, identifier u -> exists c r, u = String c r /\ is_alpha c = true.
Proof. intros u (c & r & -> & L & _). exists c, r. rewrite alpha_letter. auto. Qed.
Lemma identifier_word : forall u, identifier u -> all is_word u.
Proof.
  intros u (c & r & -> & L & A). unfold all. cbn [list_ascii_of_string forallb]. rewrite word_wordly. unfold wordly at 1. rewrite L. cbn [orb andb].
  eapply all_ext; [|exact A]. intro; symmetry; apply word_wordly.
Qed.
Lemma numeral_first : forall u, numeral u -> exists c r, u = String c r /\ is_alpha c = false.
Proof.
  intros u [M|(m & M & [->| ->])]; [|exists "+"%char, m; auto|exists "-"%char, m; auto].
  destruct (magnitude_starts u M) as (c & r & -> & D). exists c, r. split; auto.
  assert (H : implb (digit c || one_of "." c) (negb (is_alpha c)) = true) by every c. rewrite D in H. now apply negb_true_iff in H.
Qed.
Lemma symbol_first : forall u, In u symbol_texts -> exists c r, u = String c r /\ is_alpha c = false /\ c <> quote_char.
Proof.
  intros u H. cbn [symbol_texts In] in H.
  repeat (destruct H as [<-|H]; [do 2 eexists; split; [reflexivity|split; [reflexivity|discriminate]]|]). destruct H.
Qed.

(** A piece that starts with a letter is an identifier. *)
Lemma piece_alpha : forall c u, piece (String c u) -> is_alpha c = true -> identifier (String c u).
Proof.
  intros c u [I|[I|[I|(s & _ & E)]]] A; auto; exfalso.
  - destruct (numeral_first _ I) as (c' & r & E & F). injection E as <- _. congruence.
  - destruct (symbol_first _ I) as (c' & r & E & F & _). injection E as <- _. congruence.
  - unfold literal in E. injection E as -> _. discriminate.
Qed.

Lemma reserved_fixed : forall w k, find w reserved = Some k -> In w keywords /\ identifier w.
Proof.
  intros w k F. split.
  - destruct (in_dec string_dec w keywords); auto. apply symbol_keywords in n. congruence.
  - apply find_in in F. unfold reserved in F. cbn [In] in F.
    repeat (destruct F as [E|F]; [injection E as <- _; do 2 eexists; split; [reflexivity|split; vm_compute; reflexivity]|]). destruct F.
Qed.
(** Keywords and symbols spell words. *)
Lemma reserved_word : forall (d : parsed) w k, find w reserved = Some k -> exists x, spells_word d x w /\ wnum x = yytranslate k /\ wval x = VNone.
Proof.
  intros d w k F. apply find_in in F. unfold reserved in F. cbn [In] in F.
  repeat (destruct F as [E|F];
    [injection E as <- <-;
     first [eexists (W _); split; [apply Sw_token, Sp_fixed; unfold fixed; cbn [In]; repeat (first [left; reflexivity|right])|split; vm_compute; reflexivity]
           |eexists; split; [apply Sw_mark; unfold marks; cbn [In]; repeat (first [left; reflexivity|right])|split; vm_compute; reflexivity]]|]).
  destruct F.
Qed.
Lemma symbol_word : forall (d : parsed) w k, In (w, k) symbols -> exists x, spells_word d x w /\ wnum x = yytranslate k /\ wval x = VNone.
Proof.
  intros d w k F. unfold symbols in F. cbn [In] in F.
  repeat (destruct F as [E|F];
    [injection E as <- <-;
     first [eexists (W _); split; [apply Sw_token, Sp_fixed; unfold fixed; cbn [In]; repeat (first [left; reflexivity|right])|split; vm_compute; reflexivity]
           |eexists; split; [apply Sw_mark; unfold marks; cbn [In]; repeat (first [left; reflexivity|right])|split; vm_compute; reflexivity]]|]).
  destruct F.
Qed.

Lemma char_cases : forall c, yytranslate (char_token c) = 2 \/
  (yytranslate (char_token c) = 0 /\ (nat_of_ascii c = 0%nat \/ (128 <= nat_of_ascii c)%nat)) \/
  (exists k, In (k, String c "") marks /\ wnum k = yytranslate (char_token c) /\ wval k = VNone).
Proof.
  assert (MK : forall c k, In (k, String c "") marks -> wnum k = yytranslate (char_token c) -> wval k = VNone ->
    yytranslate (char_token c) = 2 \/
    (yytranslate (char_token c) = 0 /\ (nat_of_ascii c = 0%nat \/ (128 <= nat_of_ascii c)%nat)) \/
    (exists k, In (k, String c "") marks /\ wnum k = yytranslate (char_token c) /\ wval k = VNone)) by eauto 8.
  intro c.
  destruct (Ascii.eqb_spec c ":") as [->|]; [apply (MK _ KColon); cbn; tauto|].
  destruct (Ascii.eqb_spec c "=") as [->|]; [apply (MK _ KEqual); cbn; tauto|].
  destruct (Ascii.eqb_spec c "{") as [->|]; [apply (MK _ KOpen); cbn; tauto|].
  destruct (Ascii.eqb_spec c "}") as [->|]; [apply (MK _ KClose); cbn; tauto|].
  clear MK.
  assert (H : (Ascii.eqb c ":" || Ascii.eqb c "=" || Ascii.eqb c "{" || Ascii.eqb c "}" || (yytranslate (char_token c) =? 2)
    || ((yytranslate (char_token c) =? 0) && ((nat_of_ascii c =? 0)%nat || (128 <=? nat_of_ascii c)%nat))) = true) by every c.
  rewrite !orb_true_iff, andb_true_iff, orb_true_iff, !Ascii.eqb_eq, !Z.eqb_eq, Nat.eqb_eq, Nat.leb_le in H. tauto.
Qed.

Theorem yylex_word : forall (d : parsed) s k v r, yylex d s = (k, v, r) ->
  (exists g x w, gap g /\ s = g ++ w ++ r /\ spells_word d x w /\ longest w r /\ wnum x = yytranslate k /\ wval x = v) \/
  (yytranslate k = 0 /\ ends s) \/ yytranslate k = 2.
Proof.
  intros d s k v r H. destruct (skip_split s) as (g & G & E). unfold yylex in H. destruct (skip None s) as [|c s'].
  { injection H as <- <- <-. right; left. split; [reflexivity|]. left. rewrite E, append_nil. exact G. }
  destruct (is_alpha c) eqn:A.
  - left. destruct (span is_word (String c s')) as [w r'] eqn:SP. destruct (span_split _ _ _ _ SP) as (E1 & AW & B).
    remember (find w reserved) as fr eqn:FR. symmetry in FR. injection H as <- <- <-.
    assert (ID : identifier w).
    { destruct w as [|c' w]; [cbn [append] in E1; subst r'; exfalso; unfold is_word in B; rewrite A in B; discriminate|].
      cbn [append] in E1. injection E1 as <- _. exists c, w. split; auto. split; [now rewrite <- alpha_letter|].
      unfold all in AW. cbn [list_ascii_of_string forallb] in AW. apply andb_prop in AW. destruct AW as [_ AW].
      eapply all_ext; [|exact AW]. intro; apply word_wordly. }
    assert (LO : longest w r').
    { intros u r0 E2 P. destruct u as [|c' u]; [cbn; lia|]. rewrite <- E1 in E2. cbn [append] in E2. injection E2 as <- E2.
      eapply span_longest; [exact B| |apply identifier_word, (piece_alpha c u P A)]. rewrite <- E1. cbn [append]. rewrite E2. reflexivity. }
    destruct fr as [k'|].
    { destruct (reserved_word d w k' FR) as (x & X1 & X2 & X3). exists g, x, w. rewrite E, E1. unfold word_token. rewrite FR.
      repeat match goal with |- _ /\ _ => split end; auto. }
    assert (NK : ~ In w keywords) by (apply symbol_keywords; auto).
    assert (X : exists x, spells_word d x w /\ wnum x = yytranslate (word_token d w) /\ wval x = VStr w).
    { unfold word_token. rewrite FR.
      destruct (find w (d_formulas (fst d))) eqn:F1; [exists (W (KPhi w)); split; [apply Sw_token, Sp_phi; auto; congruence|split; reflexivity]|].
      destruct (find w (d_params (fst d))) eqn:F2; [exists (W (KParam w)); split; [apply Sw_token, Sp_param; auto; congruence|split; reflexivity]|].
      destruct (find w (d_signals (fst d))) eqn:F3; [exists (W (KSignal w)); split; [apply Sw_token, Sp_signal; auto; congruence|split; reflexivity]|].
      destruct (in_names w (snd d)) eqn:F4.
      - exists (KTestName w). split; [|split; reflexivity]. apply Sw_test; auto. unfold in_names in F4. apply existsb_exists in F4.
        destruct F4 as (y & I & Q). apply String.eqb_eq in Q. now subst y.
      - exists (KNew w). split; [|split; reflexivity]. apply Sw_new. repeat split; auto. intro I.
        assert (Q : in_names w (snd d) = true) by (apply existsb_exists; exists w; split; [auto|apply String.eqb_refl]). congruence. }
    destruct X as (x & X1 & X2 & X3). exists g, x, w. rewrite E, E1. repeat match goal with |- _ /\ _ => split end; auto.
  - destruct (number (String c s')) as [[n r']|] eqn:NU.
    { injection H as <- <- <-. destruct (number_split _ _ _ NU) as (E1 & NN & L). left. exists g, (W (KNumber n)), n. rewrite E, E1.
      repeat match goal with |- _ /\ _ => split end; auto; [apply Sw_token, Sp_number; auto|].
      intros u r0 E2 P. destruct P as [P|[P|[P|(q & P & EQ)]]].
      - exfalso. destruct (identifier_first _ P) as (c' & u' & -> & A'). rewrite <- E1 in E2. cbn [append] in E2. injection E2 as <- _. congruence.
      - eapply L; eauto.
      - destruct (numeral_first _ NN) as (c1 & n' & -> & _). cbn [append] in E1. injection E1 as <- E1.
        cbn [symbol_texts In] in P.
        assert (SH : (String.length u <= 1)%nat -> (String.length u <= String.length (String c n'))%nat) by (cbn [String.length]; lia).
        assert (ST : is_digit c || (code c =? 46) || sign c = true).
        { clear - NN. destruct NN as [M|(m & M & [EQ|EQ])]; [|injection EQ as -> _; reflexivity|injection EQ as -> _; reflexivity].
          destruct (magnitude_starts _ M) as (c1 & r1 & EQ & D). injection EQ as <- _.
          assert (H : implb (digit c || one_of "." c) (is_digit c || (code c =? 46)) = true) by every c. rewrite D in H. cbn in H. now rewrite H. }
        repeat (destruct P as [<-|P]; [first [apply SH; cbn; lia|cbn [append] in E2; injection E2 as -> E2; first [discriminate ST|idtac]]|]); try (destruct P; fail).
        (* -> *) exfalso. destruct NN as [M|(m & M & [EQ|EQ])].
        + destruct (magnitude_no_sign _ M) as (c1 & r1 & EQ & D). injection EQ as <- _. discriminate.
        + discriminate.
        + injection EQ as ->. destruct (magnitude_starts _ M) as (c1 & r1 & -> & D). cbn [append] in E2. injection E2 as -> _. discriminate D.
      - exfalso. subst u. unfold literal in E2. rewrite <- E1 in E2. cbn [append] in E2. injection E2 as -> _. discriminate NU. }
    destruct (symbol symbols (String c s')) as [[k' r']|] eqn:SY.
    { injection H as <- <- <-. destruct (symbol_split _ _ _ _ symbols_sorted SY) as (w & I & E1 & L). left.
      destruct (symbol_word d w k' I) as (x & X1 & X2 & X3). exists g, x, w. rewrite E, E1. repeat match goal with |- _ /\ _ => split end; auto.
      intros u r0 E2 P. rewrite <- E1 in E2. destruct P as [P|[P|[P|(q & P & EQ)]]].
      - exfalso. destruct (identifier_first _ P) as (c' & u' & -> & A'). cbn [append] in E2. injection E2 as <- _. congruence.
      - exfalso. apply (number_none u r0 P). now rewrite <- E2.
      - destruct (symbol_listed u P) as (k0 & I'). eapply L; eauto.
      - exfalso. subst u. unfold literal in E2. cbn [append] in E2. injection E2 as -> _.
        assert (IW : In w symbol_texts) by (unfold symbols in I; cbn [In] in I; repeat (destruct I as [Q|I]; [injection Q as <- _; cbn; tauto|]); destruct I).
        destruct (symbol_first w IW) as (c1 & w1 & -> & _ & NQ). cbn [append] in E1. injection E1 as <- _. congruence. }
    assert (SHORT : forall u r0, String c s' = u ++ r0 -> piece u -> (exists q, quotable q /\ u = literal q) \/ (String.length u <= 1)%nat).
    { intros u r0 E2 P. destruct P as [P|[P|[P|(q & P & EQ)]]]; [| | |left; eauto].
      - exfalso. destruct (identifier_first _ P) as (c' & u' & -> & A'). cbn [append] in E2. injection E2 as <- _. congruence.
      - exfalso. apply (number_none u r0 P). now rewrite <- E2.
      - exfalso. destruct (symbol_listed u P) as (k0 & I'). eapply symbol_none; eauto. }
    destruct (if code c =? 34 then quoted s' else None) as [[q r']|] eqn:QU.
    { injection H as <- <- <-. destruct (code c =? 34) eqn:K; [|discriminate]. apply Z.eqb_eq, (code_char c 34) in K. subst c.
      destruct (quoted_split _ _ _ _ (le_n _) QU) as (Q1 & E1). left. exists g, (KText q), (literal q). repeat match goal with |- _ /\ _ => split end; auto.
      - rewrite E, E1. unfold literal. cbn [append]. rewrite append_assoc. reflexivity.
      - apply Sw_text; auto.
      - assert (EE : literal q ++ r' = String quote_char s') by (rewrite E1; unfold literal; cbn [append]; rewrite append_assoc; reflexivity).
        intros u r0 E2 P. rewrite EE in E2. destruct (SHORT u r0 E2 P) as [(q' & Q2 & ->)|L1].
        + unfold literal in E2 |- *. cbn [append] in E2. injection E2 as E2. rewrite append_assoc in E2. cbn [append] in E2.
          assert (L2 := quoted_longest _ Q1 r' _ r0 Q2). rewrite <- E1 in L2. specialize (L2 E2). cbn [String.length]. rewrite !length_app. cbn [String.length]. lia.
        + unfold literal. cbn [String.length]. lia. }
    injection H as <- <- <-. destruct (char_cases c) as [C|[(C & NC)|(x & C & X2 & X3)]]; auto.
    + right; left. split; auto. right. exists g, c, s'. auto.
    + left. exists g, x, (String c ""). repeat match goal with |- _ /\ _ => split end; auto; [apply Sw_mark; auto|].
      intros u r0 E2 P. destruct (SHORT u r0 E2 P) as [(q & Q1 & ->)|]; [|cbn; lia]. exfalso.
      unfold literal in E2. cbn [append] in E2. injection E2 as -> E2. change (code quote_char =? 34) with true in QU. cbv iota in QU.
      rewrite append_assoc in E2. cbn [append] in E2. apply (quoted_some q Q1 r0). now rewrite <- E2.
Qed.
End LexWord.
