(** Printing a formula and reading it back. *)
From Coq Require Import List Bool String Ascii ZArith Lia.
From Verif Require Import Num Base Signal Robust Transducer TreeProof Driver Tables Parser Automaton ParserProof ParserSpec ParserTotal PrecProof LexProof.
Import ListNotations.
Local Open Scope string_scope.

Section Print.
Context {T : Type} {N : Num T}.
Variable s_to_d : string -> option T.
Variable show : T -> string.
Variable d : parsed (T := T).
Notation text := (text (fst d)).
Notation spelling := (spelling (fst d)).
Notation leaf := (leaf s_to_d (column d) show (fst d)).
Notation plain_sum := (plain_sum s_to_d (column d) show (fst d)).
Notation plain_bound := (plain_bound s_to_d show (fst d)).
Notation plain_interval := (plain_interval s_to_d show (fst d)).
Notation printable := (printable s_to_d (column d) show (fst d) actual).
Notation print := (print show).

(** The tokens of a printed formula. *)
Definition pbound (x : bound T) : tok := match bstr x with Some s => KParam s | None => KNumber (show (bnum x)) end.
Definition pint (i : interval T) : list tok := [KLBrack; pbound (ibegin i); KComma; pbound (iend i); KRBrack].
Fixpoint printed (f : fml T) : list tok :=
  match f with
  | FSig x _ => [KSignal x; KLBrack; KTime; KRBrack]
  | FConst p v => [match p with Some s => KParam s | None => KNumber (show v) end]
  | FAbs c => KAbs :: KLParen :: printed c ++ [KRParen]
  | FPlus l r => printed l ++ KPlus :: printed r
  | FMinus l r => printed l ++ KMinus :: printed r
  | FMult l r => printed l ++ KTimes :: printed r
  | FAtom l o r => printed l ++ match o with LESSTHAN => KLess | GREATERTHAN => KGreater end :: printed r
  | FNot c => KNot :: printed c
  | FAnd l r => printed l ++ KBin And :: printed r
  | FOr l r => printed l ++ KBin Or :: printed r
  | FImp l r => printed l ++ KBin Implies :: printed r
  | FEv i c => KEv :: pint i ++ KLParen :: printed c ++ [KRParen]
  | FAlw i c => KAlw :: pint i ++ KLParen :: printed c ++ [KRParen]
  | FUntil l i r => (KLParen :: printed l ++ [KRParen]) ++ KUntil :: pint i ++ KLParen :: printed r ++ [KRParen]
  end.


(** ** The grammar *)
Lemma leaf_operand : forall f, leaf f -> operand s_to_d (column d) (printed f) f.
Proof.
  intros f [x i SP C|v NU V|s SP V]; cbn [printed].
  - now constructor.
  - replace (FConst None v) with (constant s_to_d (show v)) by (unfold constant; now rewrite V). constructor.
  - replace (FConst (Some s) n0) with (constant s_to_d s) by (unfold constant; now rewrite V). constructor.
Qed.
Lemma plain_sum_sum : forall f, plain_sum f -> sum s_to_d (column d) (printed f) f.
Proof.
  induction 1; cbn [printed].
  - apply S_operand. now apply leaf_operand.
  - now apply S_abs.
  - apply S_plus; auto. now apply leaf_operand.
  - apply S_minus; auto. now apply leaf_operand.
  - apply S_times; auto. now apply leaf_operand.
Qed.
Lemma plain_range : forall i, plain_interval i -> range s_to_d (pint i) i.
Proof.
  assert (H : forall b, plain_bound b -> limit s_to_d (pbound b) b).
  { intros b [v NU V|s SP V]; unfold pbound; cbn [bstr bnum].
    - replace (mkB v None) with (side s_to_d (show v)) by (unfold side; now rewrite V). constructor.
    - replace (mkB n0 (Some s)) with (side s_to_d s) by (unfold side; now rewrite V). constructor. }
  intros [x y] [A B]. constructor; auto.
Qed.
Lemma printable_formula : forall f p q, printable f p q -> formula s_to_d (column d) (meaning d) actual (printed f) f p q.
Proof.
  induction 1 as [l o r L R|f p q F IH H|o l p q r p' q' L IHl R IHr H1 H2|i f p q I F IH H|i f p q I F IH H|l p q i r p' q' I L IHl R IHr H1 H2].
  - destruct o; cbn [printed]; [apply F_less|apply F_greater]; now apply plain_sum_sum.
  - eapply F_not; eauto.
  - replace (printed (join o l r)) with (printed l ++ KBin o :: printed r)%list by (destruct o; reflexivity). eapply F_bin; eauto.
  - cbn [printed]. eapply F_ev; [now apply plain_range| |exact H]. eapply F_paren; eauto.
  - cbn [printed]. eapply F_alw; [now apply plain_range| |exact H]. eapply F_paren; eauto.
  - cbn [printed]. eapply F_until; [eapply F_paren; eauto|now apply plain_range|eapply F_paren; eauto|exact H1|exact H2].
Qed.

(** ** The text *)
Definition safe (r : string) : Prop := match r with String c _ => wordly c || one_of "." c = false | EmptyString => True end.

Lemma put_token : forall g k w ts r, gap g -> spelling k w -> text ts r -> follows w r -> text (k :: ts) (g ++ w ++ r).
Proof. intros. econstructor; eauto. Qed.
Lemma put_fixed : forall g k w ts r, gap g -> In (k, w) fixed -> text ts r -> follows w r -> text (k :: ts) (g ++ w ++ r).
Proof. intros. econstructor; eauto. now constructor. Qed.
Lemma gap1 : gap " ". Proof. constructor; [reflexivity|constructor]. Qed.
Lemma gap0 : gap "". Proof. constructor. Qed.

Lemma spelled_id : forall k w, spelling k w -> (k = KSignal w \/ k = KParam w \/ k = KPhi w) -> identifier w.
Proof.
  assert (F : forallb (fun p : tok * string => match fst p with KSignal _ | KParam _ | KPhi _ => false | _ => true end) fixed = true) by reflexivity.
  rewrite forallb_forall in F. intros k w SP E. destruct SP as [k w IN|w NU|w ID|w ID|w ID]; auto.
  - apply F in IN. cbn [fst] in IN. destruct E as [->|[->| ->]]; discriminate.
  - destruct E as [E|[E|E]]; discriminate.
Qed.

Ltac lit g k w := refine (put_fixed g k w _ _ _ _ _ _); [first [apply gap0|apply gap1]|cbn [In fixed]; repeat (first [left; reflexivity|right])| |].

Lemma text_leaf : forall f ts r, leaf f -> text ts r -> safe r -> text (printed f ++ ts) (print f ++ r).
Proof.
  intros f ts r [x i SP C|v NU V|s SP V] X S; cbn [printed Parser.print app].
  - rewrite append_assoc. refine (put_token "" _ _ _ _ gap0 SP _ _).
    + lit "" KLBrack "["; [|reflexivity]. lit "" KTime "t"; [|reflexivity]. lit "" KRBrack "]"; [exact X|destruct r; [exact Logic.I|reflexivity]].
    + cbn [append follows]. rewrite (identifier_glues x); [reflexivity|]. eapply spelled_id; eauto.
  - refine (put_token "" _ _ _ _ gap0 (Sp_number _ _ NU) X _). destruct r; [exact Logic.I|]. cbn [follows]. now rewrite (numeral_glues _ NU).
  - refine (put_token "" _ _ _ _ gap0 SP X _). destruct r; [exact Logic.I|]. cbn [follows]. rewrite identifier_glues; [exact S|]. eapply spelled_id; eauto.
Qed.

Lemma follows_fixed : forall w c r, glues w c = false -> follows w (String c r).
Proof. auto. Qed.

Lemma leaf_starts : forall f, leaf f -> ~ unsigned_number show f -> forall r, follows "+" (print f ++ r) /\ follows "-" (print f ++ r).
Proof.
  intros f [x i SP C|v NU V|s SP V] NU' r; cbn [Parser.print unsigned_number] in *.
  - assert (ID : identifier x) by (eapply spelled_id; eauto). destruct ID as (c & w & -> & L & _). cbn [append follows].
    assert (X : implb (letter c) (negb (glues "+" c) && negb (glues "-" c)) = true) by every c.
    rewrite L in X. cbn [implb] in X. now rewrite andb_true_iff, !negb_true_iff in X.
  - destruct NU as [M|(u & M & [E|E])].
    + destruct (magnitude_starts _ M) as (c & u & E & D). rewrite E in NU'. congruence.
    + rewrite E. split; reflexivity.
    + rewrite E. split; reflexivity.
  - assert (ID : identifier s) by (eapply spelled_id; eauto). destruct ID as (c & w & -> & L & _). cbn [append follows].
    assert (X : implb (letter c) (negb (glues "+" c) && negb (glues "-" c)) = true) by every c.
    rewrite L in X. cbn [implb] in X. now rewrite andb_true_iff, !negb_true_iff in X.
Qed.

Lemma app_cons : forall (a : list tok) k b c, ((a ++ k :: b) ++ c = a ++ k :: (b ++ c))%list.
Proof. intros. now rewrite <- app_assoc. Qed.
Lemma gap_app : forall a b, gap a -> gap b -> gap (a ++ b).
Proof.
  induction 1 as [|c g B G IH|l g A G IH]; intro H; cbn [append]; auto.
  - constructor; auto.
  - change (gap ("#" ++ (l ++ String newline_char g) ++ b)). rewrite append_assoc. cbn [append].
    change (gap ("#" ++ l ++ String newline_char (g ++ b))). apply G_comment; auto.
Qed.
Lemma text_gap : forall ts g s, gap g -> text ts s -> text ts (g ++ s).
Proof.
  intros ts g s G X. destruct X as [g' G'|g' k w ts r G' SP X F].
  - constructor. now apply gap_app.
  - rewrite <- append_assoc. econstructor; eauto. now apply gap_app.
Qed.
Ltac space := match goal with |- ParserSpec.text _ _ (String " " ?r) => change (String " " r) with (" " ++ r)%string; apply text_gap; [apply gap1|] end.
Lemma text_sum : forall f, plain_sum f -> forall ts r, text ts r -> safe r -> text (printed f ++ ts) (print f ++ r).
Proof.
  induction 1 as [f LF|f S IH|l f S IH LF NU|l f S IH LF NU|l f S IH LF]; intros ts r X SA.
  - now apply text_leaf.
  - cbn [printed Parser.print]. cbn [app]. rewrite !append_assoc. lit "" KAbs "abs"; [|reflexivity]. lit "" KLParen "("; [|reflexivity].
    rewrite <- app_assoc. cbn [app].
    change (text (printed f ++ KRParen :: ts) (String " " (print f ++ (" )" ++ r)))). space.
    apply IH; [|reflexivity]. lit " " KRParen ")"; [exact X|destruct r; [exact Logic.I|reflexivity]].
  - cbn [printed Parser.print]. rewrite app_cons, !append_assoc. apply IH; [|reflexivity].
    lit "" KPlus "+"; [now apply text_leaf|now apply leaf_starts].
  - cbn [printed Parser.print]. rewrite app_cons, !append_assoc. apply IH; [|reflexivity].
    lit "" KMinus "-"; [now apply text_leaf|now apply leaf_starts].
  - cbn [printed Parser.print]. rewrite app_cons, !append_assoc. apply IH; [|reflexivity].
    lit "" KTimes "*"; [now apply text_leaf|].
    destruct (print f ++ r); [exact Logic.I|reflexivity].
Qed.

Lemma text_bound : forall b ts r, plain_bound b -> text ts r -> safe r -> text (pbound b :: ts) (print_bound show b ++ r).
Proof.
  intros b ts r [v NU V|s SP V] X S; unfold pbound, print_bound; cbn [bstr bnum].
  - refine (put_token "" _ _ _ _ gap0 (Sp_number _ _ NU) X _). destruct r; [exact Logic.I|]. cbn [follows]. now rewrite (numeral_glues _ NU).
  - refine (put_token "" _ _ _ _ gap0 SP X _). destruct r; [exact Logic.I|]. cbn [follows]. rewrite identifier_glues; [exact S|]. eapply spelled_id; eauto.
Qed.
Lemma text_interval : forall i ts r, plain_interval i -> text ts r -> text (pint i ++ ts) (print_interval show i ++ r).
Proof.
  intros i ts r [A B] X. unfold pint, print_interval. cbn [app]. rewrite !append_assoc.
  lit "" KLBrack "[".
  - apply text_bound; [exact A| |reflexivity]. lit "" KComma ","; [|].
    + apply text_bound; [exact B| |reflexivity]. lit "" KRBrack "]"; [exact X|destruct r; [exact Logic.I|reflexivity]].
    + match goal with |- follows _ ?x => destruct x; [exact Logic.I|reflexivity] end.
  - destruct A as [v NU V|s SP V]; unfold print_bound; cbn [bstr bnum].
    + destruct NU as [M|(u & M & [E|E])]; [|rewrite E; reflexivity|rewrite E; reflexivity].
      destruct (magnitude_starts _ M) as (c & u & E & D). rewrite E. cbn [append follows].
      assert (Y : implb (digit c || one_of "." c) (negb (glues "[" c)) = true) by every c. rewrite D in Y. now apply negb_true_iff in Y.
    + assert (ID : identifier s) by (eapply spelled_id; eauto). destruct ID as (c & w & -> & L & _). cbn [append follows].
      assert (Y : implb (letter c) (negb (glues "[" c)) = true) by every c. rewrite L in Y. now apply negb_true_iff in Y.
Qed.

Lemma text_formula : forall f p q, printable f p q -> forall ts r, text ts r -> safe r -> text (printed f ++ ts) (print f ++ r).
Proof.
  induction 1 as [l o f L R|f p q F IH H|o l p q f p' q' L IHl R IHr H1 H2|i f p q I F IH H|i f p q I F IH H|l p q i f p' q' I L IHl R IHr H1 H2];
    intros ts r X SA.
  - cbn [printed Parser.print]. rewrite app_cons, !append_assoc. apply text_sum; [exact L| |destruct o; reflexivity].
    destruct o; cbn [append].
    + lit " " KLess "<"; [|reflexivity]. space. now apply text_sum.
    + lit " " KGreater ">"; [|reflexivity]. space. now apply text_sum.
  - cbn [printed Parser.print]. cbn [app]. rewrite !append_assoc. lit "" KNot "not"; [|reflexivity].
    change (text (printed f ++ ts) (String " " (print f ++ r))). space. now apply IH.
  - destruct o; cbn [join printed Parser.print]; rewrite app_cons, !append_assoc; (apply IHl; [|reflexivity]); cbn [append].
    + lit " " (KBin And) "and"; [|reflexivity]. space. now apply IHr.
    + lit " " (KBin Or) "or"; [|reflexivity]. space. now apply IHr.
    + lit " " (KBin Implies) "=>"; [|reflexivity]. space. now apply IHr.
  - cbn [printed Parser.print]. cbn [app]. rewrite <- app_assoc, !append_assoc. lit "" KEv "ev_"; [|reflexivity].
    apply text_interval; [exact I|]. cbn [app]. rewrite <- app_assoc. cbn [app].
    lit " " KLParen "("; [|match goal with |- follows _ ?x => destruct x; [exact Logic.I|reflexivity] end]. apply IH; [|reflexivity].
    lit "" KRParen ")"; [|reflexivity]. space. exact X.
  - cbn [printed Parser.print]. cbn [app]. rewrite <- app_assoc, !append_assoc. lit "" KAlw "alw_"; [|reflexivity].
    apply text_interval; [exact I|]. cbn [app]. rewrite <- app_assoc. cbn [app].
    lit " " KLParen "("; [|match goal with |- follows _ ?x => destruct x; [exact Logic.I|reflexivity] end]. apply IH; [|reflexivity].
    lit "" KRParen ")"; [|reflexivity]. space. exact X.
  - cbn [printed Parser.print]. rewrite <- app_assoc. cbn [app]. rewrite <- app_assoc, !append_assoc. cbn [app].
    lit " " KLParen "("; [|match goal with |- follows _ ?x => destruct x; [exact Logic.I|reflexivity] end]. apply IHl; [|reflexivity].
    lit "" KRParen ")"; [|reflexivity]. lit " " KUntil "until_"; [|reflexivity]. rewrite <- app_assoc.
    apply text_interval; [exact I|]. cbn [app]. rewrite <- app_assoc. cbn [app].
    lit " " KLParen "("; [|match goal with |- follows _ ?x => destruct x; [exact Logic.I|reflexivity] end]. apply IHr; [|reflexivity].
    lit "" KRParen ")"; [|reflexivity]. space. exact X.
Qed.

Theorem print_parse : forall f p q x, printable f p q -> fresh (fst d) (snd d) x ->
  exists t, skel t = f /\
    parse s_to_d d (x ++ " := " ++ print f) =
      Ok (true, (d_with_formulas (fst d) (assign x t (d_formulas (fst d))), snd d)).
Proof.
  intros f p q x P FR.
  assert (X : text (printed f ++ []) (print f ++ "")) by (eapply text_formula; eauto; [constructor; constructor|exact Logic.I]).
  rewrite app_nil_r, append_nil in X. apply (text_gap _ " " _ gap1) in X.
  exact (define_formula s_to_d d x (printed f) f p q "" " " (" " ++ print f) FR (printable_formula f p q P) gap0 gap1 X).
Qed.
End Print.
