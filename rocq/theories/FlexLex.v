(** The generated scanner and the lexer of Parser.v agree. *)
From Coq Require Import List Bool String Ascii ZArith Arith Lia.
From Verif Require Import Num Base Signal Robust Transducer Driver Tables Parser FlexTables Flex FlexProof.
Import ListNotations.
Local Open Scope string_scope.
Local Open Scope nat_scope.

(** ** The automaton, state by state *)
Definition moves (q : nat) (f : ascii -> nat) : Prop := forall c, delta q c = f c.
Transparent delta acc class next_state entry.
Ltac table := let c := fresh "c" in intro c; apply Nat.eqb_eq; revert c; apply every_char; vm_compute; reflexivity.
Definition ch (n : nat) (c : ascii) : bool := Ascii.eqb (ascii_of_nat n) c.
Definition blank3 (c : ascii) : bool := ch 32 c || ch 9 c || ch 13 c.
Lemma m1 : moves 1 (fun c => if is_alpha c then 23 else if is_digit c then 18 else if blank3 c then 5 else if ch 10 c then 6 else
  if ch 33 c then 7 else if ch 34 c then 8 else if ch 35 c then 9 else if ch 38 c then 10 else if ch 40 c then 11 else if ch 41 c then 12 else
  if ch 42 c then 13 else if ch 43 c then 14 else if ch 44 c then 15 else if ch 45 c then 16 else if ch 46 c then 17 else if ch 58 c then 19 else
  if ch 60 c then 20 else if ch 61 c then 21 else if ch 62 c then 22 else if ch 91 c then 24 else if ch 93 c then 25 else if ch 124 c then 26 else 4). Proof. table. Qed.
Lemma m_word : forall q, q = 23 \/ q = 42 -> moves q (fun c => if is_word c then 42 else jam). Proof. intros q [->| ->]; table. Qed.
Lemma m_blank : forall q, q = 5 \/ q = 27 -> moves q (fun c => if blank3 c then 27 else jam). Proof. intros q [->| ->]; table. Qed.
Lemma m_comment : forall q, q = 9 \/ q = 31 -> moves q (fun c => if ch 10 c then 32 else 31). Proof. intros q [->| ->]; table. Qed.
Lemma m_quote : forall q, q = 8 \/ q = 28 -> moves q (fun c => if ch 34 c then 29 else if ch 92 c then 30 else 28). Proof. intros q [->| ->]; table. Qed.
Lemma m30 : moves 30 (fun c => if ch 10 c then jam else 28). Proof. table. Qed.
Lemma m_int : forall q, q = 18 \/ q = 34 -> moves q (fun c => if is_digit c then 34 else if ch 46 c then 33 else jam). Proof. intros q [->| ->]; table. Qed.
Lemma m_frac : forall q, q = 17 \/ q = 33 \/ q = 36 -> moves q (fun c => if is_digit c then 36 else jam). Proof. intros q [->|[->| ->]]; table. Qed.
Lemma m14 : moves 14 (fun c => if is_digit c then 34 else if ch 46 c then 33 else jam). Proof. table. Qed.
Lemma m16 : moves 16 (fun c => if is_digit c then 34 else if ch 46 c then 33 else if ch 62 c then 35 else jam). Proof. table. Qed.
Lemma m20 : moves 20 (fun c => if ch 61 c then 38 else if ch 62 c then 39 else jam). Proof. table. Qed.
Lemma m39 : moves 39 (fun c => if ch 95 c then 44 else jam). Proof. table. Qed.
Lemma m22 : moves 22 (fun c => if ch 61 c then 41 else jam). Proof. table. Qed.
Lemma m24 : moves 24 (fun c => if ch 93 c then 43 else jam). Proof. table. Qed.
Lemma m43 : moves 43 (fun c => if ch 95 c then 45 else jam). Proof. table. Qed.
Lemma m21 : moves 21 (fun c => if ch 62 c then 40 else jam). Proof. table. Qed.
Lemma m19 : moves 19 (fun c => if ch 61 c then 37 else jam). Proof. table. Qed.
(** States nothing leads on from. *)
Definition last_ones : list nat := [4; 6; 7; 10; 11; 12; 13; 15; 25; 26; 29; 32; 35; 37; 38; 40; 41; 44; 45].
Lemma m_last : forall q, In q last_ones -> moves q (fun _ => jam).
Proof. intros q H. repeat (destruct H as [<-|H]; [table|]). destruct H. Qed.
Lemma codes : forall c, (code c =? 34)%Z = ch 34 c /\ (code c =? 43)%Z = ch 43 c /\ (code c =? 45)%Z = ch 45 c /\ (code c =? 46)%Z = ch 46 c /\
  (code c =? 35)%Z = ch 35 c /\ (code c =? 10)%Z = ch 10 c /\ (code c =? 92)%Z = ch 92 c /\ is_blank c = blank3 c || ch 10 c.
Proof. intro c. repeat split; apply eqb_prop; revert c; apply every_char; vm_compute; reflexivity. Qed.
Lemma accs : map acc (seq 4 42) = [31; 1; 2; 17; 31; 31; 19; 9; 10; 24; 22; 18; 23; 27; 28; 31; 13; 31; 14; 25; 7; 8; 20; 1; 0; 29; 0; 0; 30; 27; 28; 12; 26; 21; 15; 3; 11; 16; 25; 5; 4; 6].
Proof. vm_compute. reflexivity. Qed.
Lemma acc_at : forall q, 4 <= q -> q < 46 -> acc q = nth (q - 4) [31; 1; 2; 17; 31; 31; 19; 9; 10; 24; 22; 18; 23; 27; 28; 31; 13; 31; 14; 25; 7; 8; 20; 1; 0; 29; 0; 0; 30; 27; 28; 12; 26; 21; 15; 3; 11; 16; 25; 5; 4; 6] 0.
Proof.
  intros q H1 H2. rewrite <- accs. rewrite (nth_indep _ 0 (acc 0)) by (rewrite map_length, seq_length; lia).
  rewrite map_nth, seq_nth by lia. f_equal. lia.
Qed.
Global Opaque delta acc class next_state entry.
Ltac known := rewrite !acc_at by lia; reflexivity.

(** ** Walks *)
Lemma mark_acc : forall q i last, acc q <> 0 -> marked q i last = (q, i).
Proof. intros q i last H. unfold marked. apply Nat.eqb_neq in H. rewrite H. reflexivity. Qed.
Lemma mark_none : forall q i last, acc q = 0 -> marked q i last = last.
Proof. intros q i last H. unfold marked. rewrite H. reflexivity. Qed.
Ltac accepting := first [solve [apply mark_acc; rewrite acc_at by lia; cbn; discriminate] | solve [apply mark_none; rewrite acc_at by lia; reflexivity]].
Lemma walk_last : forall q s i last, In q last_ones -> walk q s i last = marked q i last.
Proof. intros q [|c s] i last H; cbn [walk]; [reflexivity|]. rewrite (m_last q H c). reflexivity. Qed.
Lemma walk_span : forall (p : ascii -> bool) q1 q2, acc q1 <> 0 -> acc q2 <> 0 -> q2 <> jam -> moves q1 (fun c => if p c then q2 else jam) -> moves q2 (fun c => if p c then q2 else jam) ->
  forall s i last, exists q, (q = q1 \/ q = q2) /\ walk q1 s i last = (q, i + String.length (fst (span p s))).
Proof.
  intros p q1 q2 A1 A2 J M1 M2.
  assert (L : forall s i last, walk q2 s i last = (q2, i + String.length (fst (span p s)))).
  { induction s as [|c s IH]; intros i last; cbn [walk span]; [rewrite mark_acc by exact A2; cbn; f_equal; lia|].
    rewrite (M2 c). destruct (p c).
    - apply Nat.eqb_neq in J. rewrite J. rewrite IH. destruct (span p s). cbn. f_equal. lia.
    - rewrite Nat.eqb_refl, mark_acc by exact A2. cbn. f_equal. lia. }
  intros [|c s] i last; cbn [walk span].
  - exists q1. rewrite mark_acc by exact A1. split; [auto|]. cbn. f_equal. lia.
  - rewrite (M1 c). destruct (p c).
    + exists q2. pose proof J as J'. apply Nat.eqb_neq in J'. rewrite J', L. destruct (span p s). split; [auto|]. cbn. f_equal. lia.
    + exists q1. rewrite Nat.eqb_refl, mark_acc by exact A1. split; [auto|]. cbn. f_equal. lia.
Qed.
Lemma span_split : forall p s, s = fst (span p s) ++ snd (span p s).
Proof. intros p. induction s as [|c s IH]; cbn [span]; [reflexivity|]. destruct (p c); [|reflexivity]. destruct (span p s). cbn in *. congruence. Qed.

(** Comments. *)
Fixpoint line (s : string) : option (string * string) :=
  match s with
  | EmptyString => None
  | String c s' => if ch 10 c then Some ("", s') else match line s' with Some (a, b) => Some (String c a, b) | None => None end
  end.
Lemma line_split : forall s a b, line s = Some (a, b) -> s = a ++ String newline "" ++ b.
Proof.
  induction s as [|c s IH]; intros a b H; cbn [line] in H; [discriminate|]. destruct (ch 10 c) eqn:E.
  - injection H as <- <-. unfold ch in E. apply Ascii.eqb_eq in E. subst. reflexivity.
  - destruct (line s) as [[a' b']|]; [|discriminate]. injection H as <- <-. cbn. f_equal. apply IH. reflexivity.
Qed.
Lemma skip_line : forall s o, skip (Some o) s = match line s with Some (_, r) => skip None r | None => o end.
Proof.
  induction s as [|c s IH]; intros o; cbn [skip line]; [reflexivity|]. destruct (codes c) as (_ & _ & _ & _ & _ & -> & _). destruct (ch 10 c); [reflexivity|].
  rewrite IH. destruct (line s) as [[a b]|]; reflexivity.
Qed.
Lemma walk_comment : forall s i last, walk 31 s i last = match line s with Some (a, _) => (32, S i + String.length a) | None => last end.
Proof.
  induction s as [|c s IH]; intros i last; cbn [walk line]; [accepting|]. rewrite (m_comment 31 (or_intror eq_refl) c). destruct (ch 10 c).
  - replace (32 =? jam) with false by reflexivity. rewrite walk_last by (cbn; tauto). rewrite Nat.add_0_r. accepting.
  - replace (31 =? jam) with false by reflexivity. rewrite mark_none by (rewrite acc_at by lia; reflexivity). rewrite IH. destruct (line s) as [[a b]|]; [|reflexivity].
    cbn [String.length]. f_equal. lia.
Qed.
(** Strings. *)
Lemma quoted_split : forall n s a b, String.length s <= n -> quoted s = Some (a, b) -> s = a ++ String (ascii_of_nat 34) "" ++ b.
Proof.
  induction n as [|n IH]; intros [|c s] a b L H; cbn [quoted String.length] in *; try discriminate; try lia.
  destruct (codes c) as (E34 & _ & _ & _ & _ & _ & E92 & _). rewrite E34, E92 in H. destruct (ch 34 c) eqn:C.
  - injection H as <- <-. unfold ch in C. apply Ascii.eqb_eq in C. subst. reflexivity.
  - destruct (ch 92 c).
    + destruct s as [|c' s]; [discriminate|]. destruct (code c' =? 10)%Z; [discriminate|]. destruct (quoted s) as [[a' b']|] eqn:Q; [|discriminate].
      injection H as <- <-. cbn [String.length] in L. cbn. do 2 f_equal. apply IH; [lia|exact Q].
    + destruct (quoted s) as [[a' b']|] eqn:Q; [|discriminate]. injection H as <- <-. cbn. f_equal. apply IH; [lia|exact Q].
Qed.
Lemma walk_quoted : forall n s i last, String.length s <= n -> walk 28 s i last = match quoted s with Some (a, _) => (29, S i + String.length a) | None => last end.
Proof.
  induction n as [|n IH]; intros [|c s] i last L; cbn [String.length] in *; try lia; try (cbn [walk quoted]; accepting).
  cbn [walk quoted]. rewrite (m_quote 28 (or_intror eq_refl) c). destruct (codes c) as (-> & _ & _ & _ & _ & _ & -> & _). destruct (ch 34 c).
  - replace (29 =? jam) with false by reflexivity. rewrite walk_last by (cbn; tauto). rewrite Nat.add_0_r. accepting.
  - rewrite mark_none by (rewrite acc_at by lia; reflexivity). destruct (ch 92 c).
    + replace (30 =? jam) with false by reflexivity. destruct s as [|c' s]; cbn [walk]; [accepting|]. rewrite (m30 c').
      destruct (codes c') as (_ & _ & _ & _ & _ & -> & _). destruct (ch 10 c').
      * rewrite Nat.eqb_refl. accepting.
      * replace (28 =? jam) with false by reflexivity. rewrite mark_none by (rewrite acc_at by lia; reflexivity). cbn [String.length] in L. rewrite IH by lia.
        destruct (quoted s) as [[a b]|]; [|reflexivity]. cbn [String.length]. f_equal. lia.
    + replace (28 =? jam) with false by reflexivity. rewrite IH by lia. destruct (quoted s) as [[a b]|]; [|reflexivity]. cbn [String.length]. f_equal. lia.
Qed.
(** Numbers. *)
Definition constant (q : nat) : Prop := acc q = 26 \/ acc q = 27 \/ acc q = 28.
Definition after_int (s : string) : string * string :=
  let '(a, b) := span is_digit s in
  match b with
  | String c b' => if ch 46 c then let '(f, r) := span is_digit b' in (a ++ String c f, r) else (a, b)
  | EmptyString => (a, b)
  end.
Lemma append_assoc' : forall a b c : string, (a ++ b) ++ c = a ++ (b ++ c).
Proof. induction a as [|x a IH]; intros b c; cbn [append]; [reflexivity|]. rewrite IH. reflexivity. Qed.
Lemma after_int_split : forall s, s = fst (after_int s) ++ snd (after_int s).
Proof.
  intro s. pose proof (span_split is_digit s) as E. unfold after_int. destruct (span is_digit s) as [a b]. cbn [fst snd] in E. destruct b as [|c b]; [exact E|].
  destruct (ch 46 c); [|exact E]. pose proof (span_split is_digit b) as F. destruct (span is_digit b) as [f r]. cbn [fst snd] in *. rewrite append_assoc'. cbn [append]. rewrite <- F. exact E.
Qed.
Lemma walk_frac : forall q s i last, q = 17 \/ q = 33 -> exists q', constant q' /\ walk q s i last = (q', i + String.length (fst (span is_digit s))).
Proof.
  intros q s i last H.
  destruct (walk_span is_digit q 36 ltac:(destruct H; subst; rewrite acc_at by lia; discriminate) ltac:(rewrite acc_at by lia; discriminate) ltac:(discriminate)
    (m_frac q ltac:(tauto)) (m_frac 36 ltac:(tauto)) s i last) as (q' & Q & E).
  exists q'. split; [|exact E]. unfold constant. destruct Q as [->| ->]; [destruct H; subst|]; rewrite acc_at by lia; cbn; tauto.
Qed.
Lemma length_append : forall a b, String.length (a ++ b) = String.length a + String.length b.
Proof. induction a; intro b; cbn; [reflexivity|]. rewrite IHa. reflexivity. Qed.
Lemma walk_int : forall s q i last, q = 18 \/ q = 34 -> exists q', constant q' /\ walk q s i last = (q', i + String.length (fst (after_int s))).
Proof.
  induction s as [|c s IH]; intros q i last H; cbn [walk].
  - exists q. split; [unfold constant; destruct H; subst; rewrite acc_at by lia; cbn; tauto|]. rewrite mark_acc by (destruct H; subst; rewrite acc_at by lia; discriminate). cbn. f_equal. lia.
  - rewrite (m_int q H c). rewrite mark_acc by (destruct H; subst; rewrite acc_at by lia; discriminate). destruct (is_digit c) eqn:D.
    + replace (34 =? jam) with false by reflexivity. destruct (IH 34 (S i) (q, i) ltac:(tauto)) as (q' & C & E). exists q'. split; [exact C|]. rewrite E. f_equal.
      unfold after_int. cbn [span]. rewrite D. destruct (span is_digit s) as [a [|c' b]]; cbn [fst String.length]; [lia|]. destruct (ch 46 c'); [|cbn [fst String.length]; lia].
      destruct (span is_digit b). cbn [fst append String.length]. lia.
    + unfold after_int. cbn [span]. rewrite D. destruct (ch 46 c) eqn:P.
      * replace (33 =? jam) with false by reflexivity. destruct (walk_frac 33 s (S i) (q, i) ltac:(tauto)) as (q' & C & E). exists q'. split; [exact C|]. rewrite E. f_equal.
        destruct (span is_digit s). cbn [fst append String.length]. lia.
      * rewrite Nat.eqb_refl. exists q. split; [unfold constant; destruct H; subst; rewrite acc_at by lia; cbn; tauto|]. cbn. f_equal. lia.
Qed.
Lemma unsigned_digit : forall c s, is_digit c = true -> unsigned (String c s) = Some (String c (fst (after_int s)), snd (after_int s)).
Proof.
  intros c s D. unfold unsigned, after_int. cbn [span]. rewrite D. destruct (span is_digit s) as [a [|c' b]]; [reflexivity|].
  destruct (codes c') as (_ & _ & _ & -> & _). destruct (ch 46 c'); [|reflexivity]. destruct (span is_digit b). reflexivity.
Qed.
Lemma unsigned_dot : forall c s, is_digit c = false -> ch 46 c = true -> unsigned (String c s) = Some (String c (fst (span is_digit s)), snd (span is_digit s)).
Proof.
  intros c s D P. unfold unsigned. cbn [span]. rewrite D. destruct (codes c) as (_ & _ & _ & -> & _). rewrite P. destruct (span is_digit s). reflexivity.
Qed.
Lemma unsigned_none : forall c s, is_digit c = false -> ch 46 c = false -> unsigned (String c s) = None.
Proof. intros c s D P. unfold unsigned. cbn [span]. rewrite D. destruct (codes c) as (_ & _ & _ & -> & _). rewrite P. reflexivity. Qed.

(** ** One token *)
Section Lex.
Context {T : Type} {N : Num T}.
Variable d : parsed (T := T).
Definition lexed (t : string) : Prop := exists w r, t = w ++ r /\ String.length w = snd (token t) /\
  ((act_on d (acc (fst (token t))) w = Ok None /\ skip None t = skip None r) \/
   (exists k v, act_on d (acc (fst (token t))) w = Ok (Some (k, v)) /\ yylex d t = (k, v, r))).
Lemma skip_not : forall c s, blank3 c = false -> ch 10 c = false -> ch 35 c = false -> skip None (String c s) = String c s.
Proof. intros c s H1 H2 H3. cbn [skip]. destruct (codes c) as (_ & _ & _ & _ & -> & _ & _ & ->). rewrite H1, H2, H3. reflexivity. Qed.
Lemma token_cons : forall c s, token (String c s) = walk (delta 1 c) s 1 (0, 0).
Proof.
  intros c s. unfold token. cbn [walk]. destruct (first_char c) as [J _]. apply Nat.eqb_neq in J. rewrite J. rewrite mark_none; [reflexivity|]. apply start_acc.
Qed.
Lemma act_const : forall q w, constant q -> act_on d (acc q) w = Ok (Some (CONSTANT, VStr w)).
Proof. intros q w [H|[H|H]]; rewrite H; reflexivity. Qed.
Lemma skip_blanks : forall s, skip None s = skip None (snd (span blank3 s)).
Proof.
  induction s as [|c s IH]; [reflexivity|]. cbn [span]. destruct (blank3 c) eqn:B; [|reflexivity]. cbn [skip]. destruct (codes c) as (_ & _ & _ & _ & _ & _ & _ & ->). rewrite B. cbn [orb].
  rewrite IH. destruct (span blank3 s). reflexivity.
Qed.
(** A token without a value. *)
Lemma plain : forall t w r q k, t = w ++ r -> token t = (q, String.length w) -> act_on d (acc q) w = Ok (Some (k, VNone)) -> yylex d t = (k, VNone, r) -> lexed t.
Proof. intros t w r q k E K A Y. exists w, r. rewrite K. cbn [fst snd]. split; [exact E|]. split; [reflexivity|]. right. exists k, VNone. auto. Qed.
Lemma ch_eq : forall n c, ch n c = true -> c = ascii_of_nat n.
Proof. intros n c H. unfold ch in H. apply Ascii.eqb_eq in H. auto. Qed.
Lemma excl_alpha : forall c, is_alpha c = true -> blank3 c = false /\ ch 10 c = false /\ ch 35 c = false /\ is_word c = true.
Proof.
  intros c H. assert (E : implb (is_alpha c) (negb (blank3 c) && negb (ch 10 c) && negb (ch 35 c) && is_word c) = true) by (clear H; revert c; apply every_char; vm_compute; reflexivity).
  rewrite H in E. cbn [implb] in E. apply andb_prop in E as [E E4]. apply andb_prop in E as [E E3]. apply andb_prop in E as [E1 E2].
  apply negb_true_iff in E1, E2, E3. auto.
Qed.
Lemma excl_digit : forall c, is_digit c = true -> blank3 c = false /\ ch 10 c = false /\ ch 35 c = false /\ is_alpha c = false /\ ch 43 c = false /\ ch 45 c = false.
Proof.
  intros c H. assert (E : implb (is_digit c) (negb (blank3 c) && negb (ch 10 c) && negb (ch 35 c) && negb (is_alpha c) && negb (ch 43 c) && negb (ch 45 c)) = true) by (clear H; revert c; apply every_char; vm_compute; reflexivity).
  rewrite H in E. cbn [implb] in E. repeat (apply andb_prop in E as [E ?]). repeat match goal with H : negb _ = true |- _ => apply negb_true_iff in H end. auto 10.
Qed.
Lemma lex_word : forall c s, is_alpha c = true -> delta 1 c = 23 -> lexed (String c s).
Proof.
  intros c s A D. destruct (excl_alpha c A) as (B1 & B2 & B3 & B4).
  destruct (walk_span is_word 23 42 ltac:(rewrite acc_at by lia; discriminate) ltac:(rewrite acc_at by lia; discriminate) ltac:(discriminate) (m_word 23 ltac:(tauto)) (m_word 42 ltac:(tauto)) s 1 (0, 0)) as (q & Q & E).
  exists (String c (fst (span is_word s))), (snd (span is_word s)). rewrite token_cons, D, E. cbn [fst snd append String.length]. rewrite <- span_split. split; [reflexivity|]. split; [reflexivity|].
  right. exists (word_token d (String c (fst (span is_word s)))), (match find (String c (fst (span is_word s))) reserved with Some _ => VNone | None => VStr (String c (fst (span is_word s))) end).
  split; [destruct Q as [->| ->]; rewrite acc_at by lia; reflexivity|].
  unfold yylex. rewrite skip_not by assumption. rewrite A. cbn [span]. rewrite B4. destruct (span is_word s). reflexivity.
Qed.
(** A number, whatever it starts with. *)
Lemma lex_number : forall c s q w r, skip None (String c s) = String c s -> is_alpha c = false -> number (String c s) = Some (String c w, r) -> s = w ++ r ->
  constant q -> token (String c s) = (q, 1 + String.length w) -> lexed (String c s).
Proof.
  intros c s q w r K A Nm E C Tk. exists (String c w), r. rewrite Tk. cbn [fst snd]. split; [cbn; congruence|]. split; [reflexivity|]. right. exists CONSTANT, (VStr (String c w)).
  split; [apply act_const; exact C|]. unfold yylex. rewrite K, A, Nm. reflexivity.
Qed.
Lemma lex_digit : forall c s, is_digit c = true -> delta 1 c = 18 -> lexed (String c s).
Proof.
  intros c s D Q. destruct (excl_digit c D) as (B1 & B2 & B3 & B4 & B5 & B6). destruct (walk_int s 18 1 (0, 0) ltac:(tauto)) as (q & C & E).
  apply (lex_number c s q (fst (after_int s)) (snd (after_int s))); [apply skip_not; assumption|exact B4| |apply after_int_split|exact C|].
  - unfold number. destruct (codes c) as (_ & -> & -> & _). rewrite B5, B6. apply unsigned_digit. exact D.
  - rewrite token_cons, Q. exact E.
Qed.
Lemma lex_dot : forall s, lexed (String "."%char s).
Proof.
  intro s. assert (Q : delta 1 "."%char = 17) by apply m1. destruct (walk_frac 17 s 1 (0, 0) ltac:(tauto)) as (q & C & E).
  apply (lex_number "."%char s q (fst (span is_digit s)) (snd (span is_digit s))); [reflexivity|reflexivity| |apply span_split|exact C|rewrite token_cons, Q; exact E].
  unfold number. change (orb (code "." =? 43)%Z (code "." =? 45)%Z) with false. cbv iota. apply unsigned_dot; reflexivity.
Qed.
(** A sign: of a number, or alone (or of an arrow). *)
Lemma lex_sign_number : forall c q c' s, (c = "+"%char /\ q = 14) \/ (c = "-"%char /\ q = 16) -> is_digit c' = true \/ ch 46 c' = true -> delta 1 c = q -> lexed (String c (String c' s)).
Proof.
  intros c q c' s H H' Q.
  assert (M : delta q c' = if is_digit c' then 34 else 33).
  { destruct H as [[_ ->]|[_ ->]]; [rewrite (m14 c')|rewrite (m16 c')]; destruct (is_digit c'); try reflexivity; destruct H' as [H'|H']; try discriminate; rewrite H'; reflexivity. }
  assert (K : skip None (String c (String c' s)) = String c (String c' s) /\ is_alpha c = false /\
     number (String c (String c' s)) = match unsigned (String c' s) with Some (a, b) => Some (String c a, b) | None => None end).
  { destruct H as [[-> _]|[-> _]]; repeat split; reflexivity. }
  destruct K as (K & A & Nm).
  assert (Tk : forall q', q' = 33 \/ q' = 34 -> delta q c' = q' -> token (String c (String c' s)) = walk q' s 2 (q, 1)).
  { intros q' Hq' E. rewrite token_cons, Q. cbn [walk]. rewrite E. rewrite mark_acc by (destruct H as [[_ ->]|[_ ->]]; rewrite acc_at by lia; discriminate).
    destruct Hq' as [->| ->]; reflexivity. }
  destruct (is_digit c') eqn:D.
  - destruct (walk_int s 34 2 (q, 1) ltac:(tauto)) as (q' & C & E). rewrite unsigned_digit in Nm by exact D.
    apply (lex_number c (String c' s) q' (String c' (fst (after_int s))) (snd (after_int s))); [exact K|exact A|exact Nm| |exact C|].
    + cbn [append]. f_equal. apply after_int_split.
    + rewrite (Tk 34) by auto. rewrite E. cbn [String.length]. reflexivity.
  - destruct H' as [H'|H']; [discriminate|]. destruct (walk_frac 33 s 2 (q, 1) ltac:(tauto)) as (q' & C & E). rewrite unsigned_dot in Nm by assumption.
    apply (lex_number c (String c' s) q' (String c' (fst (span is_digit s))) (snd (span is_digit s))); [exact K|exact A|exact Nm| |exact C|].
    + cbn [append]. f_equal. apply span_split.
    + rewrite (Tk 33) by auto. rewrite E. cbn [String.length]. reflexivity.
Qed.
Ltac each_char c := destruct c as [[] [] [] [] [] [] [] []].
(** Nothing longer than the one character. *)
Lemma short : forall c s q k, delta 1 c = q -> match s with EmptyString => True | String c' _ => delta q c' = jam end -> acc q <> 0 ->
  act_on d (acc q) (String c "") = Ok (Some (k, VNone)) -> yylex d (String c s) = (k, VNone, s) -> lexed (String c s).
Proof.
  intros c s q k Q J A Ac Y. apply (plain (String c s) (String c "") s q k); [reflexivity| |exact Ac|exact Y]. rewrite token_cons, Q.
  destruct s as [|c' s]; cbn [walk]; [apply mark_acc; exact A|]. rewrite J, Nat.eqb_refl. apply mark_acc. exact A.
Qed.
(** Nothing longer than the two characters. *)
Lemma short2 : forall c c' s q q' k, delta 1 c = q -> delta q c' = q' -> q' <> jam -> match s with EmptyString => True | String c' _ => delta q' c' = jam end -> acc q' <> 0 ->
  act_on d (acc q') (String c (String c' "")) = Ok (Some (k, VNone)) -> yylex d (String c (String c' s)) = (k, VNone, s) -> lexed (String c (String c' s)).
Proof.
  intros c c' s q q' k Q Q' NJ J A Ac Y. apply (plain (String c (String c' s)) (String c (String c' "")) s q' k); [reflexivity| |exact Ac|exact Y]. rewrite token_cons, Q.
  apply Nat.eqb_neq in NJ. cbn [walk]. rewrite Q', NJ.
  destruct s as [|c'' s]; cbn [walk]; [apply mark_acc; exact A|]. rewrite J, Nat.eqb_refl. apply mark_acc. exact A.
Qed.
Lemma last_any : forall q (s : string), In q last_ones -> match s with EmptyString => True | String c' _ => delta q c' = jam end.
Proof. intros q [|c s] H; [exact I|]. apply (m_last q H c). Qed.
Ltac acts := rewrite acc_at by lia; first [reflexivity | discriminate].
Ltac alone Q := eapply short; [exact Q|apply last_any; cbn; tauto|acts|acts|reflexivity].
Ltac pair_of Q Q' := eapply short2; [exact Q|exact Q'|discriminate|apply last_any; cbn; tauto|acts|acts|reflexivity].
Ltac known_move M := cbv beta in M; repeat match type of M with context [if ?b then _ else _] => match goal with H : b = _ |- _ => rewrite H in M end end; exact M.
Ltac split_on n c H := destruct (ch n c) eqn:H; [apply ch_eq in H; subst c|].
Lemma lex_minus : forall s, lexed (String "-"%char s).
Proof.
  intro s. assert (Q : delta 1 "-"%char = 16) by apply m1. destruct s as [|c s].
  - eapply short; [exact Q|exact I|acts|acts|reflexivity].
  - pose proof (m16 c) as M. destruct (is_digit c) eqn:D; [eapply lex_sign_number; [right; split; reflexivity|auto|exact Q]|].
    destruct (ch 46 c) eqn:P; [eapply lex_sign_number; [right; split; reflexivity|auto|exact Q]|]. split_on 62 c H.
    + pair_of Q M.
    + eapply short; [exact Q|known_move M|acts|acts|]. each_char c; first [discriminate D | discriminate P | discriminate H | reflexivity].
Qed.
Lemma lex_plus : forall s, lexed (String "+"%char s).
Proof.
  intro s. assert (Q : delta 1 "+"%char = 14) by apply m1. destruct s as [|c s].
  - eapply short; [exact Q|exact I|acts|acts|reflexivity].
  - pose proof (m14 c) as M. destruct (is_digit c) eqn:D; [eapply lex_sign_number; [left; split; reflexivity|auto|exact Q]|].
    destruct (ch 46 c) eqn:P; [eapply lex_sign_number; [left; split; reflexivity|auto|exact Q]|].
    eapply short; [exact Q|known_move M|acts|acts|]. each_char c; first [discriminate D | discriminate P | reflexivity].
Qed.
Lemma lex_gt : forall s, lexed (String ">"%char s).
Proof.
  intro s. assert (Q : delta 1 ">"%char = 22) by apply m1. destruct s as [|c s]; [eapply short; [exact Q|exact I|acts|acts|reflexivity]|].
  pose proof (m22 c) as M. split_on 61 c H; [pair_of Q M|]. eapply short; [exact Q|known_move M|acts|acts|]. each_char c; first [discriminate H | reflexivity].
Qed.
Lemma lex_eq : forall s, lexed (String "="%char s).
Proof.
  intro s. assert (Q : delta 1 "="%char = 21) by apply m1. destruct s as [|c s]; [eapply short; [exact Q|exact I|acts|acts|reflexivity]|].
  pose proof (m21 c) as M. split_on 62 c H; [pair_of Q M|]. eapply short; [exact Q|known_move M|acts|acts|]. each_char c; first [discriminate H | reflexivity].
Qed.
Lemma lex_colon : forall s, lexed (String ":"%char s).
Proof.
  intro s. assert (Q : delta 1 ":"%char = 19) by apply m1. destruct s as [|c s]; [eapply short; [exact Q|exact I|acts|acts|reflexivity]|].
  pose proof (m19 c) as M. split_on 61 c H; [pair_of Q M|]. eapply short; [exact Q|known_move M|acts|acts|]. each_char c; first [discriminate H | reflexivity].
Qed.
Lemma short3 : forall c c' c'' s q q' q'' k, delta 1 c = q -> delta q c' = q' -> q' <> jam -> delta q' c'' = q'' -> q'' <> jam -> In q'' last_ones -> acc q'' <> 0 ->
  act_on d (acc q'') (String c (String c' (String c'' ""))) = Ok (Some (k, VNone)) -> yylex d (String c (String c' (String c'' s))) = (k, VNone, s) -> lexed (String c (String c' (String c'' s))).
Proof.
  intros c c' c'' s q q' q'' k Q Q' NJ Q'' NJ' L A Ac Y. apply (plain _ (String c (String c' (String c'' ""))) s q'' k); [reflexivity| |exact Ac|exact Y]. rewrite token_cons, Q.
  apply Nat.eqb_neq in NJ, NJ'. cbn [walk]. rewrite Q', NJ. rewrite Q'', NJ'. rewrite walk_last by exact L. apply mark_acc. exact A.
Qed.
Lemma lex_lt : forall s, lexed (String "<"%char s).
Proof.
  intro s. assert (Q : delta 1 "<"%char = 20) by apply m1. destruct s as [|c s]; [eapply short; [exact Q|exact I|acts|acts|reflexivity]|].
  pose proof (m20 c) as M. split_on 61 c H; [pair_of Q M|]. split_on 62 c H'.
  - destruct s as [|c s]; [eapply short2; [exact Q|exact M|discriminate|exact I|acts|acts|reflexivity]|].
    pose proof (m39 c) as M'. split_on 95 c G.
    + eapply short3; [exact Q|exact M|discriminate|exact M'|discriminate|cbn; tauto|acts|acts|reflexivity].
    + eapply short2; [exact Q|exact M|discriminate|known_move M'|acts|acts|]. each_char c; first [discriminate G | reflexivity].
  - eapply short; [exact Q|known_move M|acts|acts|]. each_char c; first [discriminate H | discriminate H' | reflexivity].
Qed.
Lemma lex_lint : forall s, lexed (String "["%char s).
Proof.
  intro s. assert (Q : delta 1 "["%char = 24) by apply m1. destruct s as [|c s]; [eapply short; [exact Q|exact I|acts|acts|reflexivity]|].
  pose proof (m24 c) as M. split_on 93 c H.
  - destruct s as [|c s]; [eapply short2; [exact Q|exact M|discriminate|exact I|acts|acts|reflexivity]|].
    pose proof (m43 c) as M'. split_on 95 c G.
    + eapply short3; [exact Q|exact M|discriminate|exact M'|discriminate|cbn; tauto|acts|acts|reflexivity].
    + eapply short2; [exact Q|exact M|discriminate|known_move M'|acts|acts|]. each_char c; first [discriminate G | reflexivity].
  - eapply short; [exact Q|known_move M|acts|acts|]. each_char c; first [discriminate H | reflexivity].
Qed.
Lemma lex_blank : forall c s, blank3 c = true -> delta 1 c = 5 -> lexed (String c s).
Proof.
  intros c s B D. destruct (walk_span blank3 5 27 ltac:(rewrite acc_at by lia; discriminate) ltac:(rewrite acc_at by lia; discriminate) ltac:(discriminate) (m_blank 5 ltac:(tauto)) (m_blank 27 ltac:(tauto)) s 1 (0, 0)) as (q & Q & E).
  exists (String c (fst (span blank3 s))), (snd (span blank3 s)). rewrite token_cons, D, E. cbn [fst snd append String.length]. rewrite <- span_split. split; [reflexivity|]. split; [reflexivity|].
  left. split; [destruct Q as [->| ->]; acts|]. cbn [skip]. destruct (codes c) as (_ & _ & _ & _ & _ & _ & _ & ->). rewrite B. apply skip_blanks.
Qed.
Lemma lex_newline : forall s, lexed (String newline s).
Proof.
  intro s. assert (Q : delta 1 newline = 6) by apply m1. exists (String newline ""), s. rewrite token_cons, Q, walk_last by (cbn; tauto). rewrite mark_acc by acts.
  split; [reflexivity|]. split; [reflexivity|]. left. split; [cbn [fst]; acts|reflexivity].
Qed.
Lemma lex_comment : forall s, lexed (String "#"%char s).
Proof.
  intro s. assert (Q : delta 1 "#"%char = 9) by apply m1. unfold lexed. rewrite token_cons, Q.
  assert (W : walk 9 s 1 (0, 0) = match line s with Some (a, _) => (32, 2 + String.length a) | None => (9, 1) end).
  { destruct s as [|c s]; cbn [walk line]; [apply mark_acc; acts|]. rewrite (m_comment 9 (or_introl eq_refl) c). rewrite mark_acc by acts. destruct (ch 10 c).
    - replace (32 =? jam) with false by reflexivity. rewrite walk_last by (cbn; tauto). apply mark_acc; acts.
    - replace (31 =? jam) with false by reflexivity. rewrite walk_comment. destruct (line s) as [[a b]|]; [|reflexivity]. cbn [String.length]. f_equal. }
  rewrite W. destruct (line s) as [[a r]|] eqn:L.
  - exists (String "#"%char (a ++ String newline "")), r. cbn [fst snd]. apply line_split in L as SP. split; [rewrite SP; cbn [append]; f_equal; rewrite append_assoc'; reflexivity|].
    split; [cbn [String.length]; rewrite length_append; cbn [String.length]; lia|]. left. split; [acts|].
    change (skip (Some (String "#"%char s)) s = skip None r). rewrite skip_line, L. reflexivity.
  - exists "#", s. cbn [fst snd]. split; [reflexivity|]. split; [reflexivity|]. right. exists (char_token "#"%char), VNone. split; [acts|].
    unfold yylex. change (skip None (String "#"%char s)) with (skip (Some (String "#"%char s)) s). rewrite skip_line, L. reflexivity.
Qed.
Lemma lex_quote : forall s, lexed (String """"%char s).
Proof.
  intro s. assert (Q : delta 1 """"%char = 8) by apply m1. unfold lexed. rewrite token_cons, Q.
  assert (W : walk 8 s 1 (0, 0) = match quoted s with Some (a, _) => (29, 2 + String.length a) | None => (8, 1) end).
  { rewrite <- (walk_quoted (String.length s) s 1 (8, 1)) by lia. destruct s as [|c s]; cbn [walk].
    - rewrite mark_acc by acts. rewrite mark_none by acts. reflexivity.
    - rewrite (m_quote 8 (or_introl eq_refl) c), (m_quote 28 (or_intror eq_refl) c). rewrite (mark_acc 8) by acts. rewrite (mark_none 28) by acts. reflexivity. }
  rewrite W.
  assert (Y : yylex d (String """"%char s) = match quoted s with Some (q, r) => (STRING, VStr q, r) | None => (char_token """"%char, VNone, s) end) by reflexivity.
  destruct (quoted s) as [[a r]|] eqn:L.
  - exists (String """"%char (a ++ """")), r. cbn [fst snd]. apply (quoted_split (String.length s)) in L as SP; [|lia].
    split; [rewrite SP; cbn [append]; f_equal; rewrite append_assoc'; reflexivity|]. split; [cbn [String.length]; rewrite length_append; cbn [String.length]; lia|].
    right. exists STRING, (VStr a). split; [|rewrite Y; reflexivity]. rewrite acc_at by lia. cbn [nth Nat.sub act_on]. do 4 f_equal.
    cbn [String.length]. rewrite length_append. cbn [String.length]. replace (S (String.length a + 1) - 2) with (String.length a) by lia. cbn [substring].
    clear. induction a as [|x a IH]; cbn; [reflexivity|]. f_equal. exact IH.
  - exists """", s. cbn [fst snd]. split; [reflexivity|]. split; [reflexivity|]. right. exists (char_token """"%char), VNone. split; [acts|exact Y].
Qed.
Lemma lex_step : forall t, t <> "" -> lexed t.
Proof.
  intros [|c s] H; [congruence|]. clear H. generalize (m1 c). cbv beta.
  destruct (is_alpha c) eqn:H1; [intro M; apply lex_word; assumption|]. destruct (is_digit c) eqn:H2; [intro M; apply lex_digit; assumption|].
  destruct (blank3 c) eqn:H3; [intro M; apply lex_blank; assumption|]. split_on 10 c H4; [intro M; apply lex_newline|].
  split_on 33 c K1; [intro M; alone M|]. split_on 34 c K2; [intro M; apply lex_quote|]. split_on 35 c K3; [intro M; apply lex_comment|].
  split_on 38 c K4; [intro M; alone M|]. split_on 40 c K5; [intro M; alone M|]. split_on 41 c K6; [intro M; alone M|]. split_on 42 c K7; [intro M; alone M|]. split_on 43 c K8; [intro M; apply lex_plus|].
  split_on 44 c K9; [intro M; alone M|]. split_on 45 c K10; [intro M; apply lex_minus|]. split_on 46 c K11; [intro M; apply lex_dot|]. split_on 58 c K12; [intro M; apply lex_colon|].
  split_on 60 c K13; [intro M; apply lex_lt|]. split_on 61 c K14; [intro M; apply lex_eq|]. split_on 62 c K15; [intro M; apply lex_gt|]. split_on 91 c K16; [intro M; apply lex_lint|].
  split_on 93 c K17; [intro M; alone M|]. split_on 124 c K18; [intro M; alone M|].
  intro M. apply (short c s 4 (char_token c)); [exact M|apply last_any; cbn; tauto|acts|acts|].
  clear M. each_char c; first [discriminate H1 | discriminate H2 | discriminate H3 | discriminate H4 | discriminate K1 | discriminate K2 | discriminate K3 | discriminate K4 | discriminate K5 | discriminate K6
    | discriminate K7 | discriminate K8 | discriminate K9 | discriminate K10 | discriminate K11 | discriminate K12 | discriminate K13 | discriminate K14 | discriminate K15 | discriminate K16 | discriminate K17 | discriminate K18 | reflexivity].
Qed.
End Lex.
