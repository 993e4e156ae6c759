(** The claims about the language as a whole. *)
From Coq Require Import List Bool String Ascii ZArith QArith Qcanon Lia.
From Verif Require Import Num Base Signal Robust Transducer TreeProof Driver Tables Parser Decimal Automaton ParserProof ParserSpec ParserTotal PrecProof LexProof
  ParserClaims LangSpec LangLex LangProof LangSound LangRead LangRun.
Import ListNotations.
Local Open Scope string_scope.

(** ** Texts without comments and quotes consist of ASCII characters *)
Definition tame (c : ascii) : bool := negb (Ascii.eqb c "#"%char) && negb (Ascii.eqb c quote_char).
Definition basic (c : ascii) : bool := Nat.ltb (nat_of_ascii c) 128.

Lemma all_one : forall p c s, all p (String c s) <-> p c = true /\ all p s.
Proof. intros p c s. unfold all. cbn [list_ascii_of_string forallb]. apply andb_true_iff. Qed.
Lemma all_weaken : forall (p r : ascii -> bool) s, (forall c, implb (p c) (r c) = true) -> all p s -> all r s.
Proof.
  intros p r s H. unfold all. rewrite !forallb_forall. intros A c I. specialize (H c). rewrite (A c I) in H. exact H.
Qed.
Lemma digits_basic : forall s, all digit s -> all basic s.
Proof. intros s. apply all_weaken. intro c. every c. Qed.
Lemma identifier_basic : forall w, identifier w -> all basic w.
Proof.
  intros w (c & r & -> & L & A). apply all_one. split.
  - assert (H : implb (letter c) (basic c) = true) by every c. rewrite L in H. exact H.
  - revert A. apply all_weaken. intro x. every x.
Qed.
Lemma numeral_basic : forall w, numeral w -> all basic w.
Proof.
  assert (M : forall u, magnitude_text u -> all basic u).
  { intros u [a _ A|a f A F]; [apply digits_basic; exact A|]. apply all_app. split; [apply digits_basic; exact A|].
    apply all_app. split; [reflexivity|apply digits_basic; exact F]. }
  intros w [H|(u & H & [->| ->])]; [auto| |]; (apply all_app; split; [reflexivity|auto]).
Qed.
Lemma gap_basic : forall g, gap g -> all tame g -> all basic g.
Proof.
  induction 1 as [|c g B G IH|l g A G IH]; intro Q; [reflexivity| |].
  - apply all_one in Q. destruct Q as [_ Q]. apply all_one. split; [|auto].
    assert (H : implb (blank c) (basic c) = true) by every c. rewrite B in H. exact H.
  - apply all_one in Q. destruct Q as [Q _]. discriminate Q.
Qed.
Lemma word_basic : forall T (d : known (T := T)) k w, spells_word d k w -> all tame w -> all basic w.
Proof.
  intros T d k w [k' w' S|k' w' I|w' F|w' I _ _ _ _ _|s Q] H.
  - destruct S as [k0 w0 I|w0 I|w0 I _ _|w0 I _ _ _|w0 I _ _ _ _]; auto using identifier_basic, numeral_basic.
    unfold fixed in I. cbn [In] in I. repeat (destruct I as [E|I]; [injection E as <- <-; reflexivity|]). destruct I.
  - unfold marks in I. cbn [In] in I. repeat (destruct I as [E|I]; [injection E as <- <-; reflexivity|]). destruct I.
  - destruct F as [I _]. apply identifier_basic. exact I.
  - apply identifier_basic. exact I.
  - apply all_one in H. destruct H as [H _]. discriminate H.
Qed.
Lemma scanned_basic : forall T (l : list (item (T := T))) s r, scanned l s r -> gap r -> all tame s -> all basic s.
Proof.
  induction 1 as [s|d k g w l s r G SP L SC IH]; intros GR Q; [apply gap_basic; auto|].
  apply all_app in Q. destruct Q as [Q1 Q]. apply all_app in Q. destruct Q as [Q2 Q3].
  apply all_app. split; [apply gap_basic; auto|]. apply all_app. split; [eapply word_basic; eauto|auto].
Qed.

Definition odd_text : string := "signal x " ++ String (ascii_of_nat 195) (String (ascii_of_nat 169) " := whatever ) (").
Lemma beyond_end : exists d, parse decimal d_xy odd_text = Ok (true, d) /\ forall d', ~ in_language decimal d_xy odd_text d'.
Proof.
  eexists. split; [vm_compute; reflexivity|]. intros d' (l & s & rest & _ & SC & G).
  assert (H := scanned_basic _ _ _ _ SC G ltac:(vm_compute; reflexivity)). vm_compute in H. discriminate H.
Qed.
(** Without such characters the two ends are the same. *)
Definition regular (s : string) : Prop := all (fun c => negb (Nat.eqb (nat_of_ascii c) 0) && basic c) s.
Lemma scanned_suffix : forall T (l : list (item (T := T))) s r, scanned l s r -> exists p, s = p ++ r.
Proof.
  induction 1 as [s|d k g w l s r G SP L SC (p & IH)]; [exists ""; reflexivity|]. exists (g ++ w ++ p). rewrite IH.
  rewrite !append_assoc. reflexivity.
Qed.
Lemma ends_regular : forall s, regular s -> ends s -> gap s.
Proof.
  intros s R [G|(g & c & r & G & -> & C)]; [exact G|]. exfalso. apply all_app in R. destruct R as [_ R]. apply all_one in R. destruct R as [R _].
  apply andb_prop in R. destruct R as [A B]. apply negb_true_iff, Nat.eqb_neq in A. unfold basic in B. apply Nat.ltb_lt in B. lia.
Qed.
Theorem parse_in_language : forall (T : Type) (N : Num T) (value : string -> option T) d s d', regular s -> parse value d s = Ok (true, d') -> in_language value d s d'.
Proof.
  intros T N value d s d' R H. destruct (parse_language value _ d s d' H) as (l & k & rest & P & SC & E).
  exists l, k, rest. split; [exact P|]. split; [exact SC|]. destruct (scanned_suffix _ _ _ _ SC) as (p & ->).
  apply ends_regular; [|exact E]. apply all_app in R. tauto.
Qed.
Theorem parse_accepted : forall (T : Type) (N : Num T) (value : string -> option T) d s d', parse value d s = Ok (true, d') -> accepted value d s d'.
Proof. intros T N value d s d' H. eapply parse_language. exact H. Qed.

(** ** And all texts of the language are accepted *)
Theorem language_accepted : forall (T : Type) (N : Num T) (value : string -> option T) d s d', in_language value d s d' ->
  exists d1, parse value d s = Ok (true, d1) /\ like d' d1.
Proof.
  intros T N value d s d' (l & k & rest & P & SC & G). apply (language_parsed value). exists l, k, rest. split; [exact P|]. split; [exact SC|]. left. exact G.
Qed.
Theorem accepted_parsed : forall (T : Type) (N : Num T) (value : string -> option T) d s d', accepted value d s d' ->
  exists d1, parse value d s = Ok (true, d1) /\ like d' d1.
Proof. intros T N value. exact (language_parsed value). Qed.
Theorem language_unambiguous : forall (T : Type) (N : Num T) (value : string -> option T) d s d1 d2,
  in_language value d s d1 -> in_language value d s d2 -> like d1 d2.
Proof.
  intros T N value d s d1 d2 A B. destruct (language_accepted _ _ _ _ _ _ A) as (e1 & P1 & L1). destruct (language_accepted _ _ _ _ _ _ B) as (e2 & P2 & L2).
  rewrite P1 in P2. injection P2 as <-. unfold like, alike_drv in *. intuition congruence.
Qed.
